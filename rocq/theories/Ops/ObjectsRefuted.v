(** C82: what is false of the code, and cases that meet the hypotheses of the theorems. *)
From Verif.Ops Require Export ObjectsSort.
Local Open Scope list_scope.
Local Open Scope string_scope.

(** Some hash functions, with many collisions *)
Definition poor : hashes := mkh 0 (fun s => Z.of_nat (String.length s)) (fold_right Z.add 0%Z) Z.of_nat.
Ltac each := repeat match goal with I : In _ (_ :: _) |- _ => destruct I as [<- | I] | I : In _ [] |- _ => destruct I end.
Ltac pairs c := intros [ | [ | [ | n]]] u v U V; cbn in U, V; try discriminate U; try (destruct n; discriminate U); try discriminate V; injection U as <-; injection V as <-; c.

(** Files named in different ways, numbers and truth values *)
Definition files : list (list obj) := [[File "a//b"; Int 1]; [File "./a/b/"; Bool true]; [File "/a"; Int 1]; [File "//a"; Int 1]; [File "///a"; Int 1]].
Example c82_unique_case : stream comparable files /\ usable files /\ unique poor [] files = ([[File "a//b"; Int 1]; [File "/a"; Int 1]; [File "//a"; Int 1]], None) /\
  unique_consecutive None files = ([[File "a//b"; Int 1]; [File "/a"; Int 1]; [File "//a"; Int 1]; [File "///a"; Int 1]], None).
Proof.
  split; [ | split; [ | now split]].
  - intros x y IX IY. unfold files in *. each; apply c_tuple; pairs ltac:(first [apply c_file | apply c_other; [reflexivity | reflexivity | discriminate | discriminate]]).
  - intros x IX. unfold files in *. each; apply k_tuple; intros z IZ; each; apply k_other; intros; discriminate.
Qed.
Definition dir1 : list (list obj) := [[File "a"]; [File "b"]; [File "b"]].
Definition dir2 : list (list obj) := [[File "./b"]; [File "c"]; [File "b/"]; [File "b"]].
Example c82_difference_case : stream comparable (dir1 ++ dir2) /\ usable (dir1 ++ dir2) /\ difference poor dir1 dir2 = ([[File "c"]; [File "b"]], None).
Proof.
  split; [ | split; [ | reflexivity]].
  - intros x y IX IY. unfold dir1, dir2 in *. cbn [app] in *. each; apply c_tuple; pairs ltac:(apply c_file).
  - intros x IX. unfold dir1, dir2 in *. cbn [app] in *. each; apply k_tuple; intros z IZ; each; apply k_other; intros; discriminate.
Qed.
(** ps | join -k ... *)
Definition ps1 : list (list obj) := [[Process 7 0; Str "x"]; [Process 8 1; Str "y"]; [Process 7 2; Str "z"]].
Definition ps2 : list (list obj) := [[Process 7 3; Int 1]; [Process 9 4; Int 2]].
Example c82_join_case : (forall a x b y, In (a :: x) (ps1 ++ ps2) -> In (b :: y) (ps1 ++ ps2) -> comparable a b) /\ (forall a x, In (a :: x) (ps1 ++ ps2) -> can_be_key a) /\
  join poor true ps1 ps2 = ([[Process 7 3; Int 1; Str "x"]; [Process 7 3; Int 1; Str "z"]; [Process 9 4; Int 2]], None).
Proof.
  split; [ | split; [ | reflexivity]].
  - intros a x b y IX IY. cbn in IX, IY. repeat (destruct IX as [IX | IX]); try contradiction; injection IX as <- <-; repeat (destruct IY as [IY | IY]); try contradiction; injection IY as <- <-; apply c_process.
  - intros a x IX. cbn in IX. repeat (destruct IX as [IX | IX]); try contradiction; injection IX as <- <-; apply k_other; intros; discriminate.
Qed.
(** The parts decide, not the characters of the whole name: a/b comes before a-b *)
Definition names : list (list obj) := [[File "b"; Int 2]; [File "a-b"; Int 1]; [File "a/b"; Int 7]; [File "b"; Int 1]; [File "a//b"; Int 7]; [File "/z"; Int 0]].
Example c82_sort_case : stream orderable names /\
  sort_run names = ([[File "/z"; Int 0]; [File "a/b"; Int 7]; [File "a//b"; Int 7]; [File "a-b"; Int 1]; [File "b"; Int 1]; [File "b"; Int 2]], None).
Proof.
  split; [ | reflexivity]. intros x y IX IY. unfold names in *. each; apply o_tuple; pairs ltac:(first [apply o_file | eapply o_number; reflexivity]).
Qed.

(** ** A process and the number of a process, in the same column: unique fails *)
Theorem c82_process_number_refuted : forall H pid info, unique H [] [[Process pid info]; [Int (Z.of_nat pid)]] = ([[Process pid info]], Some AttributeError).
Proof. intros H pid info. cbn. rewrite Z.eqb_refl. reflexivity. Qed.
(** ** Files and other things in the same column: == fails, and so do unique -c and sort *)
Theorem c82_mixed_refuted : forall s a, (forall t, a <> File t) ->
  eq (File s) a = Raise AttributeError /\ eq a (File s) = Raise AttributeError /\
  unique_consecutive None [[File s]; [a]] = ([[File s]], Some AttributeError) /\ sort_run [[File s]; [a]] = ([], Some AttributeError).
Proof. intros s a N. destruct a; try (exfalso; eapply N; reflexivity); repeat split; reflexivity. Qed.
(** ** History records cannot be used in unique, difference and join at all *)
Theorem c82_history_refuted : forall H i c x xs right left,
  unique H [] ((History i c :: x) :: xs) = ([], Some Kill) /\
  difference H ((History i c :: x) :: right) (xs ++ [left]) = ([], Some Kill) /\
  forall keep, join H keep ((History i c :: x) :: right) (xs ++ [left]) = ([], Some Kill).
Proof. intros H i c x xs right left. repeat split; try reflexivity; intros; destruct xs; reflexivity. Qed.
(** ** Two processes that had the same number, at different times, are the same *)
Theorem c82_reused_pid_refuted : forall H pid i j, unique H [] [[Process pid i]; [Process pid j]] = ([[Process pid i]], None).
Proof. intros H pid i j. cbn. rewrite Z.eqb_refl. cbn. now rewrite Nat.eqb_refl. Qed.

Print Assumptions c82_equal.
Print Assumptions c82_hash.
Print Assumptions c82_unique.
Print Assumptions c82_consecutive.
Print Assumptions c82_difference.
Print Assumptions c82_join.
Print Assumptions c82_order.
Print Assumptions c82_sort.
Print Assumptions c82_process_number_refuted.
Print Assumptions c82_mixed_refuted.
Print Assumptions c82_history_refuted.
Print Assumptions c82_reused_pid_refuted.
