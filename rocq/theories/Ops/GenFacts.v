From Verif.Ops Require Export Gen NestedFacts SortFacts.
Set Implicit Arguments.
Local Open Scope list_scope.

Lemma zrange_length s c : length (zrange s c) = Z.to_nat c.
Proof. unfold zrange. now rewrite map_length, seq_length. Qed.

Lemma zrange_nth s c i : i < Z.to_nat c -> nth i (zrange s c) 0%Z = (s + Z.of_nat i)%Z.
Proof.
  intros H. unfold zrange. rewrite (nth_indep _ 0%Z (s + Z.of_nat 0)%Z) by (now rewrite map_length, seq_length).
  rewrite (map_nth (fun i => (s + Z.of_nat i)%Z)). now rewrite seq_nth.
Qed.

Lemma zrange_in s c x : In x (zrange s c) -> (s <= x < s + c)%Z.
Proof.
  unfold zrange. rewrite in_map_iff. intros (i & <- & Hi). apply in_seq in Hi. lia.
Qed.

Lemma gen_pad_ok c s p fmt : gen_setup c s (Some p) = Some fmt ->
  forall x, In x (zrange s c) ->
  fmt x = VStr (zero_pad (Z.to_nat p) (dec x)) /\ (0 <= x)%Z /\ length (digits x) <= Z.to_nat p.
Proof.
  unfold gen_setup. destruct (Z.eqb_spec c 0); [discriminate|]. destruct (Z.ltb_spec s 0); [discriminate|].
  destruct (Z.ltb_spec p (Z.of_nat (String.length (dec (s + c - 1))))); [discriminate|].
  intros [= <-] x Hx. apply zrange_in in Hx. split; [reflexivity|]. split; [lia|].
  rewrite dec_length in * by lia.
  pose proof (@digits_length_mono x (s + c - 1)). lia.
Qed.

(** head never raises, so gen goes on for ever in front of it. *)
Lemma open_gen s k : open_stream (gen_forever s k).
Proof.
  unfold gen_forever, open_stream. generalize (seq 0 k). intros l. induction l; simpl; auto.
Qed.
