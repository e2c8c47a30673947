(* C41: the version is recorded where none was. *)
From Coq Require Import Ascii String List Bool Arith Lia.
From Verif.Sys Require Import Csv Layout LayoutSpec LayoutFacts.
Import ListNotations.
Open Scope list_scope.

(* 0.1, 0.37.3, 1.0, ...: anything but 0.0 *)
Definition a_version (t : text) : Prop := exists d rest, isdigit d = true /\ d <> "0"%char /\ (t = d :: rest \/ t = txt "0." ++ d :: rest).

Theorem c41_version_recorded : forall w version, look config w = Some D -> look version_file w = None -> a_version version ->
  exists w', record_version version w = Ok w' /\ look version_file w' = Some (F version) /\
             forall q, q <> version_file -> look q w' = look q w.
Proof.
  intros w version C V (d & rest & Dd & N & E). unfold record_version. rewrite mkdir_there by exact C. cbn [bind].
  unfold installed_version. rewrite V.
  assert (L : str_lt (txt "0.0.0") version = true).
  { assert (G : (nat_of_ascii "0" <? nat_of_ascii d)%nat = true).
    { apply Nat.ltb_lt. unfold isdigit in Dd.
      assert (X : nat_of_ascii d <> nat_of_ascii "0").
      { intros H. apply N. rewrite <- (ascii_nat_embedding d), H. reflexivity. }
      change (nat_of_ascii "0") with 48 in *. apply andb_prop in Dd as (D1 & _). apply Nat.leb_le in D1. lia. }
    destruct E as [-> | ->].
    - change (txt "0.0.0") with ("0"%char :: txt ".0.0"). cbn [str_lt]. now rewrite G.
    - change (txt "0.0.0") with (txt "0." ++ "0"%char :: txt ".0"). 
      change (str_lt (txt "0." ++ "0"%char :: txt ".0") (txt "0." ++ d :: rest)) with (str_lt ("0"%char :: txt ".0") (d :: rest)).
      cbn [str_lt]. now rewrite G. }
  rewrite L. destruct (write_ok config "VERSION" version w C) as (w' & W & P).
  { change (config ++ ["VERSION"%string]) with version_file. rewrite V. discriminate. }
  exists w'. split; [exact W|]. split.
  - rewrite P. destruct (path_dec version_file (config ++ ["VERSION"%string])); [reflexivity|now destruct n].
  - intros q Q. rewrite P. destruct (path_dec q (config ++ ["VERSION"%string])) as [X|_]; [|reflexivity]. now destruct Q.
Qed.
Example version_example : a_version (txt "0.37.3") /\ look config [(config, D)] = Some D /\ look version_file [(config, D)] = None.
Proof. split; [|split; reflexivity]. exists "3"%char, (txt "7.3"). repeat split; [discriminate|now right]. Qed.
Print Assumptions c41_version_recorded.
