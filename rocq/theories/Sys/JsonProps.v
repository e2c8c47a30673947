(* Proofs about JSON support (C40). *)
From Coq Require Import Ascii String List Bool Arith ZArith Lia.
From Verif.Sys Require Import Csv Json JsonSpec.
Import ListNotations.

(* ---- induction over nested values ---- *)

Fixpoint tree_ind' (P : tree -> Prop)
  (h0 : P TNull) (h1 : forall b, P (TBool b)) (h2 : forall z, P (TInt z)) (h3 : forall r, P (TFloat r))
  (h4 : forall s, P (TStr s)) (h5 : forall l, Forall P l -> P (TArr l))
  (h6 : forall l, Forall (fun p => P (snd p)) l -> P (TObj l)) (t : tree) : P t :=
  match t with
  | TNull => h0 | TBool b => h1 b | TInt z => h2 z | TFloat r => h3 r | TStr s => h4 s
  | TArr l => h5 l ((fix go l := match l return Forall P l with
                      | [] => Forall_nil _
                      | x :: r => Forall_cons _ (tree_ind' P h0 h1 h2 h3 h4 h5 h6 x) (go r) end) l)
  | TObj l => h6 l ((fix go l := match l return Forall (fun p => P (snd p)) l with
                      | [] => Forall_nil _
                      | x :: r => Forall_cons x (tree_ind' P h0 h1 h2 h3 h4 h5 h6 (snd x)) (go r) end) l)
  end.

Fixpoint pv_ind' (P : pv -> Prop)
  (h0 : P VNull) (h1 : forall b, P (VBool b)) (h2 : forall z, P (VInt z)) (h3 : forall r, P (VFloat r))
  (h4 : forall s, P (VStr s)) (h5 : forall l, Forall P l -> P (VList l))
  (h6 : forall l, Forall (fun p => P (snd p)) l -> P (VDict l))
  (h7 : forall l, Forall (fun p => P (snd p)) l -> P (VObj l)) (t : pv) : P t :=
  let go2 := fix go l := match l return Forall (fun p => P (snd p)) l with
                      | [] => Forall_nil _
                      | x :: r => Forall_cons x (pv_ind' P h0 h1 h2 h3 h4 h5 h6 h7 (snd x)) (go r) end in
  match t with
  | VNull => h0 | VBool b => h1 b | VInt z => h2 z | VFloat r => h3 r | VStr s => h4 s
  | VList l => h5 l ((fix go l := match l return Forall P l with
                      | [] => Forall_nil _
                      | x :: r => Forall_cons _ (pv_ind' P h0 h1 h2 h3 h4 h5 h6 h7 x) (go r) end) l)
  | VDict l => h6 l (go2 l)
  | VObj l => h7 l (go2 l)
  end.

Lemma map_eq_Forall : forall A B (f g : A -> B) l, Forall (fun x => f x = g x) l -> map f l = map g l.
Proof. induction 1; simpl; congruence. Qed.

Definition vmap (f : pv -> pv) (l : list (text * pv)) : list (text * pv) :=
  map (fun p => (fst p, f (snd p))) l.

Lemma text_eqb_eq : forall a b, text_eqb a b = true <-> a = b.
Proof. intros a b. unfold text_eqb. destruct (list_eq_dec ascii_dec a b); split; congruence. Qed.

Lemma text_eqb_refl : forall a, text_eqb a a = true.
Proof. intros. apply text_eqb_eq. reflexivity. Qed.

(* ---- dicts ---- *)

Lemma dict_set_vmap : forall f k v d, vmap f (dict_set k v d) = dict_set k (f v) (vmap f d).
Proof.
  induction d as [|[k' v'] d IH]; simpl; auto.
  destruct (text_eqb k k'); simpl; auto. f_equal. exact IH.
Qed.

Lemma dict_of_vmap_from : forall f pairs d,
  vmap f (fold_left (fun d p => dict_set (fst p) (snd p) d) pairs d)
  = fold_left (fun d p => dict_set (fst p) (snd p) d) (vmap f pairs) (vmap f d).
Proof.
  induction pairs as [|[k v] pairs IH]; simpl; intros; auto.
  rewrite IH, dict_set_vmap. reflexivity.
Qed.

Lemma dict_of_vmap : forall f pairs, vmap f (dict_of pairs) = dict_of (vmap f pairs).
Proof. intros. apply (dict_of_vmap_from f pairs []). Qed.

Lemma dict_get_vmap : forall f k d, dict_get k (vmap f d) = option_map f (dict_get k d).
Proof.
  induction d as [|[k' v'] d IH]; simpl; auto. destruct (text_eqb k k'); simpl; auto.
Qed.

Lemma dict_set_new : forall k v d, ~ In k (map fst d) -> dict_set k v d = d ++ [(k, v)].
Proof.
  induction d as [|[k' v'] d IH]; simpl; intros H; auto.
  destruct (text_eqb k k') eqn:E.
  - apply text_eqb_eq in E. exfalso. apply H. left. congruence.
  - f_equal. apply IH. tauto.
Qed.

Lemma dict_set_keys : forall k v d,
  map fst (dict_set k v d) = map fst d \/ map fst (dict_set k v d) = map fst d ++ [k] /\ ~ In k (map fst d).
Proof.
  induction d as [|[k' v'] d IH]; simpl.
  - right. split; auto.
  - destruct (text_eqb k k') eqn:E; simpl.
    + left. reflexivity.
    + destruct IH as [IH|[IH N]].
      * left. f_equal. exact IH.
      * right. split. { f_equal. exact IH. }
        intros [H|H]; auto. subst. rewrite text_eqb_refl in E. discriminate.
Qed.

Lemma NoDup_snoc : forall A (l : list A) x, NoDup l -> ~ In x l -> NoDup (l ++ [x]).
Proof.
  induction l; simpl; intros x H N.
  - constructor; [intros []|constructor].
  - inversion H; subst. constructor.
    + rewrite in_app_iff. simpl. intuition congruence.
    + apply IHl; auto.
Qed.

Lemma dict_of_distinct : forall pairs, NoDup (map fst (dict_of pairs)).
Proof.
  intros. unfold dict_of.
  assert (forall d, NoDup (map fst d) ->
    NoDup (map fst (fold_left (fun d p => dict_set (fst p) (snd p) d) pairs d))) as H.
  { induction pairs as [|[k v] pairs IH]; simpl; intros d Hd; auto. apply IH.
    destruct (dict_set_keys k v d) as [E|[E N]]; rewrite E; auto. apply NoDup_snoc; auto. }
  apply H. constructor.
Qed.

Lemma dict_of_id_from : forall pairs d, NoDup (map fst (d ++ pairs)) ->
  fold_left (fun d p => dict_set (fst p) (snd p) d) pairs d = d ++ pairs.
Proof.
  induction pairs as [|[k v] pairs IH]; simpl; intros d H.
  - rewrite app_nil_r. reflexivity.
  - rewrite dict_set_new.
    + rewrite IH; rewrite <- app_assoc; auto.
    + rewrite map_app in H. simpl in H. apply NoDup_remove_2 in H. rewrite in_app_iff in H. tauto.
Qed.

Lemma dict_of_id : forall pairs, NoDup (map fst pairs) -> dict_of pairs = pairs.
Proof. intros. apply (dict_of_id_from pairs []). exact H. Qed.

Lemma text_eqb_eq' : forall a b, text_eqb a b = true <-> a = b.
Proof. intros. unfold text_eqb. destruct (list_eq_dec ascii_dec a b); split; congruence. Qed.
Lemma get_set_same : forall k v d, dict_get k (dict_set k v d) = Some v.
Proof.
  induction d as [|[k' v'] d IH]; cbn [dict_set dict_get].
  - now rewrite (proj2 (text_eqb_eq' k k) eq_refl).
  - destruct (text_eqb k k') eqn:E; cbn [dict_get]; rewrite E; auto.
Qed.
Lemma get_set_other : forall k k1 v d, k <> k1 -> dict_get k (dict_set k1 v d) = dict_get k d.
Proof.
  induction d as [|[k' v'] d IH]; cbn [dict_set dict_get]; intros N.
  - destruct (text_eqb k k1) eqn:E; auto. apply text_eqb_eq' in E. congruence.
  - destruct (text_eqb k1 k') eqn:E; cbn [dict_get].
    + apply text_eqb_eq' in E. subst. destruct (text_eqb k k') eqn:F; auto. apply text_eqb_eq' in F. congruence.
    + destruct (text_eqb k k'); auto.
Qed.
Lemma dict_of_last : forall a k v b, ~ In k (map fst b) -> dict_get k (dict_of (a ++ (k, v) :: b)) = Some v.
Proof.
  intros a k v b N. unfold dict_of. rewrite fold_left_app. cbn [fold_left fst snd].
  generalize (fold_left (fun d p => dict_set (fst p) (snd p) d) a []). intros d.
  assert (G : forall b d, ~ In k (map fst b) -> dict_get k d = Some v -> dict_get k (fold_left (fun d p => dict_set (fst p) (snd p) d) b d) = Some v).
  { clear. induction b as [|[k1 v1] b IH]; cbn; intros d N H; auto. apply IH; [tauto|]. rewrite get_set_other; auto. }
  apply G; auto. apply get_set_same.
Qed.

Lemma in_dict_set : forall k v d p, In p (dict_set k v d) -> snd p = v \/ In p d.
Proof.
  induction d as [|[k' v'] d IH]; simpl; intros p H.
  - destruct H as [<-|[]]. left. reflexivity.
  - destruct (text_eqb k k'); simpl in H.
    + destruct H as [<-|H]; auto.
    + destruct H as [H|H]; auto. apply IH in H. tauto.
Qed.

Lemma in_dict_of : forall pairs p, In p (dict_of pairs) -> exists k, In (k, snd p) pairs.
Proof.
  intros pairs p. unfold dict_of.
  assert (forall d, In p (fold_left (fun d p => dict_set (fst p) (snd p) d) pairs d) ->
    (exists k, In (k, snd p) pairs) \/ In p d) as H.
  { induction pairs as [|[k v] pairs IH]; simpl; intros d H; auto.
    apply IH in H. destruct H as [[k' H]|H].
    - left. exists k'. auto.
    - apply in_dict_set in H. simpl in H. destruct H as [H|H]; auto. left. exists k. left. congruence. }
  intros H'. apply H in H'. destruct H' as [H'|[]]. exact H'.
Qed.

(* ---- conversion ---- *)

Lemma d2o_idem : forall v, dict_to_object (dict_to_object v) = dict_to_object v.
Proof.
  induction v using pv_ind'; simpl; auto.
  rewrite map_map. f_equal. apply map_eq_Forall. exact H.
Qed.

Lemma as_dicts_d2o : forall v, as_dicts (dict_to_object v) = as_dicts v.
Proof.
  induction v using pv_ind'; simpl; auto.
  - rewrite map_map. f_equal. apply map_eq_Forall. exact H.
  - rewrite map_map. f_equal. apply map_eq_Forall. eapply Forall_impl; [|exact H].
    intros p E. simpl. f_equal. exact E.
Qed.

Lemma spell_d2o : forall v, spell (dict_to_object v) = spell v.
Proof.
  induction v using pv_ind'; simpl; auto.
  - rewrite map_map. f_equal. apply map_eq_Forall. exact H.
  - rewrite map_map. f_equal. apply map_eq_Forall. eapply Forall_impl; [|exact H].
    intros p E. simpl. f_equal. exact E.
Qed.

Lemma decode_loads : forall t, decode t = dict_to_object (json_loads t).
Proof.
  induction t using tree_ind'; simpl; auto.
  - unfold decode, json_loads. simpl. rewrite map_map. f_equal. apply map_eq_Forall. exact H.
  - unfold decode, json_loads in *. simpl. f_equal.
    change (vmap dict_to_object (dict_of (map (fun p => (fst p, build dict_to_object (snd p))) l))
            = vmap dict_to_object (dict_of (map (fun p => (fst p, build (fun d => d) (snd p))) l))).
    rewrite !dict_of_vmap. unfold vmap. rewrite !map_map. f_equal. apply map_eq_Forall.
    eapply Forall_impl; [|exact H]. intros p E. simpl. f_equal. simpl in E. rewrite E. apply d2o_idem.
Qed.

(* Values made of lists and dicts with distinct keys *)
Inductive plain : pv -> Prop :=
| plain_null : plain VNull
| plain_bool : forall b, plain (VBool b)
| plain_int : forall z, plain (VInt z)
| plain_float : forall r, plain (VFloat r)
| plain_str : forall s, plain (VStr s)
| plain_list : forall l, (forall x, In x l -> plain x) -> plain (VList l)
| plain_dict : forall l, NoDup (map fst l) -> (forall p, In p l -> plain (snd p)) -> plain (VDict l).

Lemma loads_plain : forall t, plain (json_loads t).
Proof.
  induction t using tree_ind'; try constructor.
  - intros x Hx. apply in_map_iff in Hx. destruct Hx as (y & <- & Hy).
    rewrite Forall_forall in H. apply H. exact Hy.
  - apply dict_of_distinct.
  - intros p Hp. apply in_dict_of in Hp. destruct Hp as [k Hp].
    apply in_map_iff in Hp. destruct Hp as ([k' t] & E & Hy). injection E as _ E2. rewrite <- E2.
    rewrite Forall_forall in H. apply (H _ Hy).
Qed.

Lemma plain_as_dicts : forall v, plain v -> as_dicts v = v.
Proof.
  induction v using pv_ind'; simpl; intros Hp; auto; inversion Hp; subst.
  - f_equal. rewrite <- (map_id l) at 2. apply map_eq_Forall. rewrite Forall_forall in *. auto.
  - f_equal. rewrite <- (map_id l) at 2. apply map_eq_Forall. rewrite Forall_forall in *.
    intros [k x] Hi. simpl. f_equal. apply (H (k, x) Hi). match goal with A : forall p, In p _ -> plain (snd p) |- _ => apply (A (k, x) Hi) end.
Qed.

Lemma loads_spell : forall v, plain v -> json_loads (spell v) = v.
Proof.
  induction v using pv_ind'; simpl; intros Hp; auto; inversion Hp; subst; unfold json_loads in *; simpl.
  - f_equal. rewrite map_map. rewrite <- (map_id l) at 2. apply map_eq_Forall. rewrite Forall_forall in *. auto.
  - f_equal. rewrite map_map. simpl.
    assert (map (fun p : text * pv => (fst p, build (fun d => d) (spell (snd p)))) l = l) as E.
    { rewrite <- (map_id l) at 2. apply map_eq_Forall. rewrite Forall_forall in *.
      intros [k x] Hi. simpl. f_equal. apply (H (k, x) Hi). match goal with A : forall p, In p _ -> plain (snd p) |- _ => apply (A (k, x) Hi) end. }
    transitivity (dict_of l). { f_equal. exact E. } apply dict_of_id. assumption.
Qed.

(* ---- the encoder ---- *)

Fixpoint weight (x : pv) : nat :=
  match x with
  | VList l => 1 + list_sum (map weight l)
  | VDict l => 1 + list_sum (map (fun p => weight (snd p)) l)
  | VObj l => 2 + list_sum (map (fun p => weight (snd p)) l)
  | _ => 1
  end.

Lemma list_sum_le : forall A (f g : A -> nat) l, Forall (fun x => f x <= g x) l ->
  list_sum (map f l) <= list_sum (map g l).
Proof. induction 1; simpl; lia. Qed.

Lemma weight_o2d : forall x, weight (object_to_dict x) <= weight x.
Proof.
  induction x using pv_ind'; simpl; auto.
  rewrite map_map. simpl. apply list_sum_le in H. simpl in H. lia.
Qed.

Lemma spell_o2d : forall x, spell (object_to_dict x) = spell x.
Proof.
  induction x using pv_ind'; simpl; auto.
  rewrite map_map. f_equal. apply map_eq_Forall. eapply Forall_impl; [|exact H].
  intros p E. simpl. f_equal. exact E.
Qed.

Lemma all_some_map : forall A B (f : A -> option B) (g : A -> B) l,
  (forall x, In x l -> f x = Some (g x)) -> all_some (map f l) = Some (map g l).
Proof.
  induction l as [|a l IH]; intros H; auto.
  change (match f a, all_some (map f l) with Some x, Some xs => Some (x :: xs) | _, _ => None end = Some (g a :: map g l)).
  rewrite (H a) by (left; reflexivity). rewrite IH; auto. intros x Hx. apply H. right. exact Hx.
Qed.

Lemma weight_in : forall A (f : A -> nat) l x, In x l -> f x <= list_sum (map f l).
Proof.
  induction l as [|a l IH]; simpl; intros x H; [tauto|]. destruct H as [->|H]; [lia|].
  apply IH in H. lia.
Qed.

Lemma encode_enough : forall n x, weight x <= n -> encode_in n x = Some (spell x).
Proof.
  induction n as [|n IH]; intros x H.
  - destruct x; simpl in H; lia.
  - destruct x as [ | | | | |l|l|l]; try reflexivity.
    + simpl in *. rewrite (all_some_map _ _ _ spell); auto.
      intros y Hy. apply IH. pose proof (weight_in _ weight l y Hy). lia.
    + simpl in *. rewrite (all_some_map _ _ _ (fun p => (fst p, spell (snd p)))); auto.
      intros y Hy. rewrite IH; auto. pose proof (weight_in _ (fun p => weight (snd p)) l y Hy). simpl in *. lia.
    + change (encode_in n (object_to_dict (VObj l)) = Some (spell (VObj l))).
      rewrite <- spell_o2d. apply IH.
      simpl. simpl in H. rewrite map_map. simpl.
      assert (list_sum (map (fun p : text * pv => weight (object_to_dict (snd p))) l)
              <= list_sum (map (fun p => weight (snd p)) l)); [|lia].
      apply list_sum_le. apply Forall_forall. intros. apply weight_o2d.
Qed.

Lemma formats_spell : forall x, formats x (spell x).
Proof. intros x. exists (weight x). intros. apply encode_enough. exact H. Qed.

Lemma formats_unique : forall x t t', formats x t -> formats x t' -> t = t'.
Proof.
  intros x t t' [n H] [n' H']. specialize (H (n + n')). specialize (H' (n + n')).
  rewrite H in H' by lia. specialize (H' ltac:(lia)). congruence.
Qed.

Lemma spell_as_dicts : forall x, spell (as_dicts x) = spell x.
Proof.
  induction x using pv_ind'; simpl; auto; rewrite map_map; f_equal; apply map_eq_Forall;
    (eapply Forall_impl; [|exact H]; intros p E; simpl; first [exact E | f_equal; exact E]).
Qed.

(* ---- the theorems ---- *)

(* C40: what json_parse gives is the value of the text, with objects in place of dicts; json_format
   writes it as it would write that value; reading what it writes gives the same value again, as plain
   JSON and as objects. *)
Theorem c40_round_trip : forall t,
  as_dicts (decode t) = json_loads t /\
  exists t', formats (decode t) t' /\ formats (json_loads t) t' /\
             json_loads t' = json_loads t /\ decode t' = decode t.
Proof.
  intros t. split.
  - rewrite decode_loads, as_dicts_d2o. apply plain_as_dicts. apply loads_plain.
  - exists (spell (json_loads t)). repeat split.
    + rewrite decode_loads. rewrite <- spell_d2o. apply formats_spell.
    + apply formats_spell.
    + apply loads_spell. apply loads_plain.
    + rewrite !decode_loads, loads_spell; auto. apply loads_plain.
Qed.

(* C40: json_format always succeeds on values built from numbers, strings, lists, dicts and objects in
   whatever nesting, and treats an object as the dict of its attributes. *)
Theorem c40_objects_format_as_dicts : forall x,
  exists t, formats x t /\ formats (as_dicts x) t /\ forall t', formats x t' -> t' = t.
Proof.
  intros x. exists (spell x). repeat split.
  - apply formats_spell.
  - rewrite <- spell_as_dicts. apply formats_spell.
  - intros t' H. eapply formats_unique; [exact H|apply formats_spell].
Qed.

Lemma d2o_dict_iff : forall x l, dict_to_object x = VObj l -> plain x -> exists d, x = VDict d /\ l = vmap dict_to_object d.
Proof. intros x l H P. destruct x; simpl in H; try discriminate; inversion P; subst. exists l0. injection H as <-. auto. Qed.

Lemma nav_item : forall path x, plain x ->
  navigate_by_item path (dict_to_object x) = option_map dict_to_object (follow path x).
Proof.
  induction path as [|[k|i] path IH]; intros x P; simpl; auto.
  - destruct x; simpl; auto; inversion P; subst.
    change (map (fun p : text * pv => (fst p, dict_to_object (snd p))) l) with (vmap dict_to_object l).
    rewrite dict_get_vmap. destruct (dict_get k l) as [v|] eqn:E; simpl; auto. apply IH.
    match goal with A : forall p, In p _ -> plain (snd p) |- _ => rename A into H2 end. clear -E H2. induction l as [|[k' v'] l IH]; simpl in *; [discriminate|].
    destruct (text_eqb k k'); [injection E as <-; apply (H2 (k', v')); auto|].
    apply IH; auto.
  - destruct x; simpl; auto; inversion P; subst.
    rewrite nth_error_map. destruct (nth_error l i) eqn:E; simpl; auto. apply IH.
    apply H0. eapply nth_error_In. exact E.
Qed.

(* The last of several members with the same key is the one that counts. *)
Theorem c40_last_duplicate : forall a k u b, ~ In k (map fst b) ->
  follow [Key k] (json_loads (TObj (a ++ (k, u) :: b))) = Some (json_loads u) /\
  navigate_by_item [Key k] (decode (TObj (a ++ (k, u) :: b))) = Some (decode u).
Proof.
  intros a k u b N.
  assert (F : follow [Key k] (json_loads (TObj (a ++ (k, u) :: b))) = Some (json_loads u)).
  { unfold json_loads. cbn [build follow]. rewrite map_app. cbn [map fst snd]. rewrite dict_of_last; auto.
    rewrite map_map. exact N. }
  split; auto. rewrite decode_loads, nav_item, F by apply loads_plain. cbn. now rewrite decode_loads.
Qed.
Example c40_last_duplicate_example :
  let k := list_ascii_of_string "k" in
  navigate_by_item [Key k] (decode (TObj [(k, TInt 1); (list_ascii_of_string "m", TNull); (k, TInt 2)])) = Some (VInt 2).
Proof. reflexivity. Qed.

(* C40: every member of the JSON value is found in the parsed objects by [x['k']] and [x[i]], under the
   path it has in the JSON value; a path that leads nowhere in the JSON value leads nowhere. *)
Theorem c40_navigation_by_item : forall t path,
  navigate_by_item path (decode t) = option_map dict_to_object (follow path (json_loads t)).
Proof. intros. rewrite decode_loads. apply nav_item. apply loads_plain. Qed.

Lemma nav_attr : forall path x, plain x ->
  (forall k, In (Key k) path -> ~ In k class_attributes) ->
  navigate path (dict_to_object x) = option_map dict_to_object (follow path x).
Proof.
  induction path as [|[k|i] path IH]; intros x P N; [reflexivity| |].
  - cbn [navigate follow]. destruct x; try reflexivity; inversion P; subst. cbn [dict_to_object getattr].
    destruct (in_dec (list_eq_dec ascii_dec) k class_attributes) as [Hi|_].
    { exfalso. apply (N k); auto. left. reflexivity. }
    change (map (fun p : text * pv => (fst p, dict_to_object (snd p))) l) with (vmap dict_to_object l).
    rewrite dict_get_vmap. destruct (dict_get k l) as [v|] eqn:E; simpl; auto. apply IH.
    + match goal with A : forall p, In p _ -> plain (snd p) |- _ => rename A into HP end. clear -E HP. induction l as [|[k' v'] l IH]; simpl in *; [discriminate|].
      destruct (text_eqb k k'); [injection E as <-; apply (HP (k', v')); auto|].
      apply IH; auto.
    + intros. apply N. right. exact H.
  - cbn [navigate follow]. destruct x; try reflexivity; inversion P; subst. cbn [dict_to_object].
    rewrite nth_error_map. destruct (nth_error l i) eqn:E; cbn [option_map]; auto. apply IH.
    + apply H0. eapply nth_error_In. exact E.
    + intros. apply N. right. exact H.
Qed.

(* C40: the same by [x.k], unless a key on the way is one of three names *)
Theorem c40_navigation_by_attribute_partial : forall t path,
  (forall k, In (Key k) path -> ~ In k class_attributes) ->
  navigate path (decode t) = option_map dict_to_object (follow path (json_loads t)).
Proof. intros. rewrite decode_loads. apply nav_attr; auto. apply loads_plain. Qed.

(* ... which it cannot find. *)
Theorem c40_navigation_by_attribute_refuted : forall k, In k class_attributes ->
  exists t v, follow [Key k] (json_loads t) = Some v /\ navigate [Key k] (decode t) = None.
Proof.
  intros k H. exists (TObj [(k, TNull)]), VNull. unfold json_loads. cbn.
  rewrite text_eqb_refl. split; auto.
  change (list_eq_dec ascii_dec) with (list_eq_dec ascii_dec).
  match goal with |- match (match ?d with _ => _ end) with _ => _ end = _ => destruct d as [_|n] end; auto.
  exfalso. apply n. exact H.
Qed.

(* The three names, spelled out: a path by attributes leads where it leads in the dicts just if none of them is on the way (and the path leads somewhere). *)
Theorem c40_attribute_names : forall k : text,
  (exists t v, follow [Key k] (json_loads t) = Some v /\ navigate [Key k] (decode t) = None) <->
  k = txt "__class__" \/ k = txt "__dict__" \/ k = txt "__weakref__".
Proof.
  intro k. split.
  - intros (t & v & F & N).
    destruct (in_dec (list_eq_dec ascii_dec) k class_attributes) as [I|I].
    + destruct I as [<-|[<-|[<-|[]]]]; auto.
    + rewrite c40_navigation_by_attribute_partial in N.
      * rewrite F in N. discriminate.
      * intros k' [E|[]]. injection E as <-. exact I.
  - intro H. apply c40_navigation_by_attribute_refuted. unfold class_attributes, txt in *. cbn [In]. intuition.
Qed.

(* ---- a concrete case ---- *)

Example c40_case :
  let t := TObj [(txt "a", TArr [TInt 1; TObj [(txt "b", TStr (txt "x"))]]); (txt "items", TNull); (txt "a", TArr [TObj [(txt "c", TBool true)]])] in
  decode t = VObj [(txt "a", VList [VObj [(txt "c", VBool true)]]); (txt "items", VNull)] /\
  navigate [Key (txt "a"); Pos 0; Key (txt "c")] (decode t) = Some (VBool true) /\
  encode_in 9 (decode t) = Some (TObj [(txt "a", TArr [TObj [(txt "c", TBool true)]]); (txt "items", TNull)]).
Proof. vm_compute. auto. Qed.

Print Assumptions c40_round_trip.
Print Assumptions c40_attribute_names.
