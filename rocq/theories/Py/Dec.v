(** str(int), padding and lexicographic order of digit strings. *)
From Verif.Py Require Export Val.
Set Implicit Arguments.
Local Open Scope string_scope.
Local Open Scope list_scope.
Local Open Scope nat_scope.

Definition digit (d : Z) : ascii := ascii_of_nat (48 + Z.to_nat d).

Fixpoint digits_acc (fuel : nat) (n : Z) (acc : list Z) : list Z :=
  match fuel with
  | O => acc
  | S fuel' => if Z.ltb n 10 then n :: acc
               else digits_acc fuel' (Z.div n 10) (Z.modulo n 10 :: acc)
  end.

(** Decimal digits of a non-negative integer, most significant first. *)
Definition digits (n : Z) : list Z := digits_acc (S (Z.to_nat n)) n [].

Definition str_of_digits (l : list Z) : string :=
  fold_right (fun d s => String (digit d) s) EmptyString l.

(** Python str(n) for an int. *)
Definition dec (n : Z) : string :=
  if Z.ltb n 0 then String "-"%char (str_of_digits (digits (- n))) else str_of_digits (digits n).

(** '{:>0w}'.format(n): right aligned in a field of w, filled with zeros. *)
Fixpoint zeros (k : nat) : string :=
  match k with O => EmptyString | S k' => String "0"%char (zeros k') end.
Definition zero_pad (w : nat) (s : string) : string := append (zeros (w - String.length s)) s.

(** * Facts *)
Fixpoint value (l : list Z) : Z :=
  match l with
  | [] => 0
  | d :: l' => (d * 10 ^ Z.of_nat (List.length l') + value l')%Z
  end.

Definition is_digit (d : Z) : Prop := (0 <= d < 10)%Z.

Lemma digits_acc_spec fuel : forall n acc, (0 <= n)%Z -> (n < 10 ^ Z.of_nat fuel)%Z -> Forall is_digit acc ->
  fuel > 0 ->
  let l := digits_acc fuel n acc in
  Forall is_digit l /\
  value l = (n * 10 ^ Z.of_nat (List.length acc) + value acc)%Z /\
  exists pre, l = pre ++ acc /\ pre <> [] /\ (n < 10 ^ Z.of_nat (List.length pre))%Z /\
    (List.length pre = 1 \/ (10 ^ (Z.of_nat (List.length pre) - 1) <= n)%Z).
Proof.
  induction fuel as [|fuel IH]; intros n acc Hn Hlt Hacc Hf; [lia|].
  cbn [digits_acc]. destruct (Z.ltb_spec n 10) as [Hs|Hs]; simpl.
  - split; [constructor; auto; split; auto|]. split; [reflexivity|].
    exists [n]. simpl. repeat split; auto; try lia. discriminate.
  - assert (Z.of_nat (S fuel) = Z.of_nat fuel + 1)%Z as E by lia. rewrite E, Z.pow_add_r in Hlt by lia.
    assert (fuel > 0) as Hf'. { destruct fuel; [simpl in Hlt; lia|lia]. }
    pose proof (Z.div_mod n 10 ltac:(lia)) as Hdm. pose proof (Z.mod_pos_bound n 10 ltac:(lia)) as Hm.
    destruct (IH (n / 10)%Z (n mod 10 :: acc)%Z) as (H1 & H2 & pre & H3 & H4 & H5 & H6); auto.
    + apply Z.div_pos; lia.
    + apply Z.div_lt_upper_bound; lia.
    + split; [exact H1|]. split.
      * rewrite H2. simpl List.length. rewrite Nat2Z.inj_succ, Z.pow_succ_r by lia. cbn [value]. nia.
      * exists (pre ++ [n mod 10]%Z). split; [rewrite <- app_assoc; exact H3|].
        split; [intros Hc; apply app_eq_nil in Hc; destruct Hc; discriminate|].
        rewrite app_length. simpl List.length. rewrite Nat2Z.inj_add. simpl (Z.of_nat 1).
        split.
        -- rewrite Z.pow_add_r by lia. change (10 ^ 1)%Z with 10%Z. lia.
        -- right. destruct pre as [|d pre]; [congruence|].
           replace (Z.of_nat (List.length (d :: pre)) + 1 - 1)%Z with ((Z.of_nat (List.length (d :: pre)) - 1) + 1)%Z by lia.
           rewrite Z.pow_add_r by (cbn [List.length]; lia). change (10 ^ 1)%Z with 10%Z.
           destruct H6 as [H6|H6]; [|nia].
           simpl in H6. assert (pre = []) as -> by (destruct pre; simpl in *; auto; lia). simpl.
           assert (1 <= n / 10)%Z by (apply Z.div_le_lower_bound; lia). lia.
Qed.

Lemma pow10_gt n : (0 <= n)%Z -> (n < 10 ^ Z.of_nat (S (Z.to_nat n)))%Z.
Proof.
  intros Hn. rewrite Nat2Z.inj_succ, Z2Nat.id by auto.
  assert (n < 10 ^ n)%Z by (apply Z.pow_gt_lin_r; lia).
  rewrite Z.pow_succ_r by auto. pose proof (Z.pow_pos_nonneg 10 n ltac:(lia) Hn). lia.
Qed.

Lemma digits_spec n : (0 <= n)%Z ->
  Forall is_digit (digits n) /\ value (digits n) = n /\ digits n <> [] /\
  (n < 10 ^ Z.of_nat (List.length (digits n)))%Z /\
  (List.length (digits n) = 1 \/ (10 ^ (Z.of_nat (List.length (digits n)) - 1) <= n)%Z).
Proof.
  intros Hn. unfold digits.
  destruct (@digits_acc_spec (S (Z.to_nat n)) n []) as (H1 & H2 & pre & H3 & H4 & H5 & H6); auto.
  - now apply pow10_gt.
  - lia.
  - rewrite app_nil_r in H3. rewrite H3 in *. simpl in H2. repeat split; auto; lia.
Qed.

Lemma digits_length_mono x y : (0 <= x <= y)%Z -> List.length (digits x) <= List.length (digits y).
Proof.
  intros H. destruct (digits_spec (n := x)) as (_ & _ & Hx1 & Hx2 & Hx3); [lia|].
  destruct (digits_spec (n := y)) as (_ & _ & Hy1 & Hy2 & Hy3); [lia|].
  destruct (Nat.le_gt_cases (List.length (digits x)) (List.length (digits y))) as [Hle|Hgt]; auto. exfalso.
  assert (List.length (digits y) >= 1) by (destruct (digits y); [congruence|simpl; lia]).
  destruct Hx3 as [Hx3|Hx3]; [lia|].
  assert (10 ^ Z.of_nat (List.length (digits y)) <= 10 ^ (Z.of_nat (List.length (digits x)) - 1))%Z.
  { apply Z.pow_le_mono_r; lia. }
  lia.
Qed.

Lemma str_of_digits_length l : String.length (str_of_digits l) = List.length l.
Proof. induction l; simpl; auto. Qed.

Lemma str_of_digits_app a b : str_of_digits (a ++ b) = append (str_of_digits a) (str_of_digits b).
Proof. induction a; simpl; auto. now rewrite IHa. Qed.

Lemma zeros_digits k : zeros k = str_of_digits (repeat 0%Z k).
Proof. induction k; simpl; auto. now rewrite IHk. Qed.

Lemma value_zeros k l : value (repeat 0%Z k ++ l) = value l.
Proof. induction k; simpl; auto. Qed.

Lemma value_bound l : Forall is_digit l -> (0 <= value l < 10 ^ Z.of_nat (List.length l))%Z.
Proof.
  induction 1 as [|d l Hd _ IH]; cbn [value List.length]; [simpl; lia|].
  rewrite Nat2Z.inj_succ, Z.pow_succ_r by lia. unfold is_digit in Hd. nia.
Qed.

Lemma nat_of_digit d : is_digit d -> nat_of_ascii (digit d) = 48 + Z.to_nat d.
Proof. intros H. unfold digit. apply nat_ascii_embedding. unfold is_digit in H. lia. Qed.

(** Digit strings of the same length compare like the numbers they denote. *)
Lemma digits_lex a : forall b, Forall is_digit a -> Forall is_digit b -> List.length a = List.length b ->
  str_ltb (str_of_digits a) (str_of_digits b) = Z.ltb (value a) (value b).
Proof.
  induction a as [|x a IH]; intros [|y b] Ha Hb Hl; simpl in Hl; try lia; [reflexivity|].
  inversion Ha as [|? ? Hx Ha']; subst. inversion Hb as [|? ? Hy Hb']; subst.
  cbn [str_of_digits fold_right str_ltb value]. fold (str_of_digits a). fold (str_of_digits b).
  rewrite !nat_of_digit by auto. injection Hl as Hl. rewrite (IH b) by auto.
  pose proof (value_bound Ha') as Ba. pose proof (value_bound Hb') as Bb. rewrite Hl in *.
  set (P := (10 ^ Z.of_nat (List.length b))%Z) in *. unfold is_digit in *.
  destruct (Nat.ltb_spec (48 + Z.to_nat x) (48 + Z.to_nat y)).
  - symmetry. apply Z.ltb_lt. assert (x < y)%Z by lia. nia.
  - destruct (Nat.ltb_spec (48 + Z.to_nat y) (48 + Z.to_nat x)).
    + symmetry. apply Z.ltb_ge. assert (y < x)%Z by lia. nia.
    + assert (x = y) as -> by lia.
      destruct (Z.ltb_spec (value a) (value b)), (Z.ltb_spec (y * P + value a) (y * P + value b)); auto; lia.
Qed.

Lemma append_length a b : String.length (append a b) = String.length a + String.length b.
Proof. induction a; simpl; auto. Qed.

Lemma zero_pad_digits w n : (0 <= n)%Z -> List.length (digits n) <= w ->
  zero_pad w (dec n) = str_of_digits (repeat 0%Z (w - List.length (digits n)) ++ digits n).
Proof.
  intros Hn Hw. unfold zero_pad, dec. destruct (Z.ltb_spec n 0); [lia|].
  rewrite str_of_digits_length, zeros_digits, str_of_digits_app. reflexivity.
Qed.

Lemma zero_pad_length w n : (0 <= n)%Z -> List.length (digits n) <= w -> String.length (zero_pad w (dec n)) = w.
Proof.
  intros Hn Hw. rewrite zero_pad_digits by auto. rewrite str_of_digits_length, app_length, repeat_length. lia.
Qed.

Lemma zero_pad_lex w x y : (0 <= x)%Z -> (0 <= y)%Z ->
  List.length (digits x) <= w -> List.length (digits y) <= w ->
  str_ltb (zero_pad w (dec x)) (zero_pad w (dec y)) = Z.ltb x y.
Proof.
  intros Hx Hy Hwx Hwy. rewrite !zero_pad_digits by auto.
  destruct (digits_spec Hx) as (Dx & Vx & _). destruct (digits_spec Hy) as (Dy & Vy & _).
  assert (forall k, Forall is_digit (repeat 0%Z k)) as Hz.
  { intros k. apply Forall_forall. intros d Hd. apply repeat_spec in Hd. subst. split; lia. }
  rewrite digits_lex.
  - now rewrite !value_zeros, Vx, Vy.
  - apply Forall_app; auto.
  - apply Forall_app; auto.
  - rewrite !app_length, !repeat_length. lia.
Qed.

Lemma dec_length n : (0 <= n)%Z -> String.length (dec n) = List.length (digits n).
Proof. intros Hn. unfold dec. destruct (Z.ltb_spec n 0); [lia|]. apply str_of_digits_length. Qed.
