(** C84, continued: nothing is killed while the pipeline runs, unless the client says so. *)
From Verif.Sys Require Import FarcelSpec FarcelProps.

Section Spared.
Context {V : Type}.
Definition quiet (i : list (item V)) : Prop := forall sg, ~ In (Item (Signal sg)) i.
Definition calm (s : state V) : Prop :=
  match at_ s with Opening i | Listening i => quiet i | Killing _ _ => over (runner s) | _ => True end.

Lemma receive_quiet : forall ok (i : list (item V)), quiet i -> quiet (snd (receive ok i)).
Proof.
  assert (T : forall x (i : list (item V)), quiet (x :: i) -> quiet i) by (intros x i Q sg I; apply (Q sg); now right).
  intros ok i Q. destruct i as [|[o|] i]; cbn; auto; apply T in Q; auto.
  destruct i as [|[o'|] i]; cbn; auto; apply T in Q; auto.
  destruct i as [|[o''|] i]; cbn; auto; apply T in Q; auto. destruct o''; auto.
Qed.
Lemma calm_step : forall ok s a s', calm s -> step ok s a s' -> calm s'.
Proof.
  intros ok s a s' C S. destruct S; unfold calm in *; cbn in *; auto.
  - pose proof (receive_quiet ok i C) as Q. rewrite H in Q. exact Q.
  - exfalso. apply (C s). now left.
  - destruct a; auto. cbn in C. congruence.
  - destruct a; auto. cbn in C. congruence.
Qed.
Lemma calm_runs : forall ok s tr s', runs ok s tr s' -> calm s -> calm s'.
Proof. intros ok s tr s' R. induction R; auto. intros C. apply IHR. eapply calm_step; eauto. Qed.

(** If the client sends no signal, farcel ends no process before the pipeline is over. *)
Theorem c84_spared : forall ok (input : list (item V)) tr s s', (forall sg, ~ In (Item (Signal sg)) input) ->
  runs ok (start input) tr s -> step ok s Main s' -> procs s' = procs s \/ over (runner s).
Proof.
  intros ok input tr s s' Q R S. assert (C : calm s) by (eapply calm_runs; eauto).
  inversion S; subst; cbn; auto.
Qed.
End Spared.
(** An input without signals *)
Example c84_spared_case : forall sg, ~ In (Item (Signal sg)) [Item Other; Item Other; Item (Pipeline (fun _ => Some (Output 0)))].
Proof. intros sg I. cbn in I. intuition discriminate. Qed.
Print Assumptions c84_spared.
