(** Which form of ws a line chooses. *)
From Verif.Sys Require Export WsOpSpec.
From Verif.Syntax Require Import Args ArgsTable.
Local Open Scope string_scope.
Local Open Scope list_scope.

Definition impl_of (c : cmd) : impl :=
  match c with
  | Which => WsIdentify | All => WsList | New n => WsNew n | Open n => WsOpen n | Close => WsClose | Delete n => WsDelete n
  | DeleteBroken => WsDeleteBroken | Home d => WsHome d
  end.

Lemma string_word : forall n, string_of_list_ascii (word n) = n.
Proof. intros. apply string_of_list_ascii_of_string. Qed.

Section Plain.
Variable n : string.
Hypothesis P : plain n.

Lemma plain_char : forall c r, word n = c :: r -> Ascii.eqb c "-"%char = false.
Proof.
  intros c r E. destruct (Ascii.eqb_spec c "-"%char) as [-> | ]; [ | reflexivity]. destruct n as [ | x s]; [discriminate E | ].
  cbn in E. injection E as -> _. destruct (P s eq_refl).
Qed.
Lemma plain_plausible : plausible (OStr (word n)) = false.
Proof. cbn. destruct (word n) as [ | c [ | d r]] eqn:E; [reflexivity | reflexivity | ]. exact (plain_char _ _ E). Qed.
Lemma plain_expand : expand_arg op_ws (OStr (word n)) = [OStr (word n)].
Proof.
  unfold expand_arg. destruct (word n) as [ | c [ | d [ | e r]]] eqn:E; try reflexivity.
  rewrite (plain_char _ _ E : (c =? "-")%char = false). reflexivity.
Qed.
Lemma plain_flag : find_flag op_ws (OStr (word n)) = None.
Proof.
  unfold find_flag. destruct (find (is_symbol (word n)) (d_flags op_ws)) as [f | ] eqn:E; [ | reflexivity].
  apply find_some in E. destruct E as [I S]. unfold is_symbol in S. apply existsb_exists in S. destruct S as (x & IX & X).
  unfold teqb in X. destruct (list_eq_dec Ascii.ascii_dec (word n) x) as [EX | ]; [ | discriminate X].
  assert (H : exists r, x = "-"%char :: r).
  { cbn in I. repeat (destruct I as [<- | I]; [cbn in IX; destruct IX as [<- | [<- | []]]; eexists; reflexivity | ]). destruct I. }
  destruct H as (r & ->). pose proof (plain_char _ _ EX) as C. discriminate C.
Qed.
End Plain.

Lemma parse_bare : forall n, plain n -> WsOp.parse [word n] = Some [(word "name", OStr (word n))].
Proof.
  intros n P. unfold WsOp.parse, Args.parse. cbn [map flat_map]. rewrite (plain_expand n P). cbn [app extract].
  unfold extract_one. rewrite (plain_flag n P), (plain_plausible n P). generalize (OStr (word n)). intros o. reflexivity.
Qed.

Lemma parse_value : forall f k n, plain n ->
  In (f, k) [("-n", "new"); ("--new", "new"); ("-o", "open"); ("--open", "open"); ("-d", "delete"); ("--delete", "delete"); ("-h", "home"); ("--home", "home")] ->
  WsOp.parse [word f; word n] = Some [(word k, OStr (word n)); (word "name", ONone)].
Proof.
  intros f k n P I. unfold WsOp.parse, Args.parse. cbn [map flat_map]. rewrite (plain_expand n P).
  pose proof (plain_flag n P) as F. pose proof (plain_plausible n P) as Q. clear P. generalize dependent (word n). intros t F Q.
  cbn in I.
  repeat (destruct I as [E | I];
    [injection E as <- <-;
     match goal with |- context [expand_arg op_ws (OStr (word ?x)) ++ _] => change (expand_arg op_ws (OStr (word x))) with [OStr (word x)] end;
     cbn [app extract];
     match goal with |- context [extract_one ?c ?d ?s (OStr (word ?x))] =>
       let y := eval vm_compute in (extract_one c d s (OStr (word x))) in change (extract_one c d s (OStr (word x))) with y end;
     cbn [extract]; unfold extract_one; rewrite F, Q; vm_compute; reflexivity | ]).
  destruct I.
Qed.

Lemma parse_flag : forall f k,
  In (f, k) [("-l", "list"); ("--list", "list"); ("-c", "close"); ("--close", "close"); ("-b", "delete_broken"); ("--delete-broken", "delete_broken")] ->
  WsOp.parse [word f] = Some [(word k, OTrue); (word "name", ONone)].
Proof. intros f k I. cbn in I. repeat (destruct I as [E | I]; [injection E as <- <-; vm_compute; reflexivity | ]). destruct I. Qed.

Lemma word_string : forall n, value (OStr (word n)) = n.
Proof. intros. apply string_word. Qed.

(** Each command is what its line chooses, and is let through *)
Lemma written_impl : forall words c, written words c -> exists m, WsOp.parse words = Some m /\ choose m = impl_of c /\ checks (impl_of c) m = true.
Proof.
  intros words c W. destruct W as [ | f I | f n I P | f n I P | n P | f I | f n I P | f I | f d I P].
  - eexists. split; [vm_compute; reflexivity | ]. split; reflexivity.
  - exists [(word "list", OTrue); (word "name", ONone)]. split; [apply parse_flag; cbn in *; intuition congruence | ]. split; reflexivity.
  - exists [(word "new", OStr (word n)); (word "name", ONone)]. split; [apply parse_value; [exact P | cbn in *; intuition congruence] | ].
    split; [ | reflexivity]. cbn [impl_of]. rewrite <- (word_string n) at 2. reflexivity.
  - exists [(word "open", OStr (word n)); (word "name", ONone)]. split; [apply parse_value; [exact P | cbn in *; intuition congruence] | ].
    split; [ | reflexivity]. cbn [impl_of]. rewrite <- (word_string n) at 2. reflexivity.
  - exists [(word "name", OStr (word n))]. split; [apply parse_bare, P | ].
    split; [ | reflexivity]. cbn [impl_of]. rewrite <- (word_string n) at 2. reflexivity.
  - exists [(word "close", OTrue); (word "name", ONone)]. split; [apply parse_flag; cbn in *; intuition congruence | ]. split; reflexivity.
  - exists [(word "delete", OStr (word n)); (word "name", ONone)]. split; [apply parse_value; [exact P | cbn in *; intuition congruence] | ].
    split; [ | reflexivity]. cbn [impl_of]. rewrite <- (word_string n) at 2. reflexivity.
  - exists [(word "delete_broken", OTrue); (word "name", ONone)]. split; [apply parse_flag; cbn in *; intuition congruence | ]. split; reflexivity.
  - exists [(word "home", OStr (word d)); (word "name", ONone)]. split; [apply parse_value; [exact P | cbn in *; intuition congruence] | ].
    split; [ | reflexivity]. cbn [impl_of]. rewrite <- (word_string d) at 2. reflexivity.
Qed.
