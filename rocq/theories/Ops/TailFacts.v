From Verif.Ops Require Export BasicFacts.
Set Implicit Arguments.
Local Open Scope list_scope.


Lemma set_nth_app (A : Type) (i : nat) (x : A) l : i < length l ->
  set_nth i x l = firstn i l ++ x :: skipn (S i) l.
Proof.
  revert i; induction l as [|y l IH]; intros [|i] H; simpl in *; try lia; auto.
  rewrite IH by lia. reflexivity.
Qed.

Lemma set_nth_length (A : Type) (i : nat) (x : A) l : length (set_nth i x l) = length l.
Proof. revert i; induction l as [|y l IH]; intros [|i]; simpl; auto. Qed.

Lemma skipn_nth_cons (A : Type) (d : A) i l : i < length l -> skipn i l = nth i l d :: skipn (S i) l.
Proof.
  revert i; induction l as [|y l IH]; intros [|i] H; simpl in *; try lia; auto.
  apply IH; lia.
Qed.

Lemma firstn_S_nth (A : Type) (d : A) i l : i < length l -> firstn (S i) l = firstn i l ++ [nth i l d].
Proof.
  revert i; induction l as [|y l IH]; intros [|i] H; simpl in *; try lia; auto.
  rewrite <- IH by lia. reflexivity.
Qed.

(** The logical content of the circular queue, oldest first. *)
Definition content (q : list val) (e : nat) : list val := skipn e q ++ firstn e q.

Lemma content_step q e x n : length q = n -> e < n ->
  content (set_nth e x q) (Nat.modulo (e + 1) n) = tl (content q e) ++ [x].
Proof.
  intros Hq He. unfold content. rewrite set_nth_app by lia.
  rewrite (@skipn_nth_cons _ VNone e q) by lia. cbn [tl app].
  destruct (Nat.eq_dec (e + 1) n) as [E|E].
  - rewrite E, Nat.mod_same by lia. rewrite skipn_O, firstn_O. rewrite app_nil_r.
    rewrite (skipn_all2 (n := S e) q) by lia. simpl. reflexivity.
  - rewrite Nat.mod_small by lia. replace (e + 1) with (S e) by lia.
    assert (length (firstn e q) = e) as Hf by (rewrite firstn_length; lia).
    replace (firstn e q ++ x :: skipn (S e) q) with ((firstn e q ++ [x]) ++ skipn (S e) q)
      by (now rewrite <- app_assoc).
    assert (length (firstn e q ++ [x]) = S e) as Hf1 by (rewrite app_length; simpl; lia).
    rewrite skipn_app, firstn_app, Hf1, Nat.sub_diag, skipn_O, firstn_O, app_nil_r.
    rewrite (skipn_all2 (n := S e) (firstn e q ++ [x])) by lia.
    rewrite (firstn_all2 (n := S e) (firstn e q ++ [x])) by lia. cbn [app]. now rewrite <- app_assoc.
Qed.

Lemma content_hd q e : e < length q -> content q e = nth e q VNone :: tl (content q e).
Proof. intros H. unfold content. rewrite (@skipn_nth_cons _ VNone e q) by lia. reflexivity. Qed.

Lemma content_length q e : e <= length q -> length (content q e) = length q.
Proof. intros H; unfold content. rewrite app_length, skipn_length, firstn_length. lia. Qed.

Lemma tail_emit_straight n q c p : p + c <= length q -> length q <= n ->
  tail_emit n q p c = map Data (firstn c (skipn p q)).
Proof.
  revert p; induction c as [|c IH]; intros p H1 H2; cbn [tail_emit]; [reflexivity|].
  rewrite (@skipn_nth_cons _ VNone p q) by lia. cbn [firstn map].
  f_equal. destruct c; [reflexivity|].
  rewrite Nat.mod_small by lia. rewrite IH by lia. now replace (p + 1) with (S p) by lia.
Qed.

Lemma tail_emit_wrap n q : length q = n -> forall c1 p c2, p < n -> p + c1 = n -> c1 <> 0 ->
  tail_emit n q p (c1 + c2) = tail_emit n q p c1 ++ tail_emit n q 0 c2.
Proof.
  intros Hq; induction c1 as [|c1 IH]; intros p c2 Hp H H0; [lia|].
  cbn [Nat.add tail_emit app]. f_equal.
  destruct (Nat.eq_dec c1 0) as [->|Hc].
  - simpl. replace (p + 1) with n by lia. now rewrite Nat.mod_same by lia.
  - rewrite Nat.mod_small by lia. apply IH; lia.
Qed.

Lemma tail_emit_content n q e : 0 < n -> length q <= n -> (length q < n -> e = 0) -> e < n ->
  tail_emit n q e (Nat.min n (length q)) = map Data (content q e).
Proof.
  intros Hn Hq H0 He. rewrite Nat.min_r by lia. unfold content.
  destruct (Nat.eq_dec (length q) n) as [E|E].
  - replace (length q) with ((n - e) + e) by lia.
    rewrite tail_emit_wrap by lia. rewrite !tail_emit_straight by lia.
    rewrite map_app. cbn [skipn]. f_equal.
    rewrite firstn_all2; [reflexivity|]. rewrite skipn_length; lia.
  - rewrite H0 by lia. rewrite tail_emit_straight by lia. cbn [skipn firstn].
    now rewrite firstn_all, app_nil_r.
Qed.

(** Invariant: the queue holds the last n of the rows received. *)
Definition tail_inv (n : nat) (got : list val) (s : tail_state) : Prop :=
  length (t_queue s) = Nat.min n (length got) /\
  t_end s < n /\
  (length (t_queue s) < n -> t_end s = 0) /\
  content (t_queue s) (t_end s) = lastn n got.

Definition tail_next (n : nat) (s : tail_state) (x : val) : tail_state :=
  if Nat.ltb (length (t_queue s)) n
  then MkTail (t_queue s ++ [x]) (t_end s)
  else MkTail (set_nth (t_end s) x (t_queue s)) (Nat.modulo (t_end s + 1) n).

Lemma lastn_snoc_small (A : Type) n (l : list A) x : length l < n -> lastn n (l ++ [x]) = lastn n l ++ [x].
Proof.
  intros H. unfold lastn. rewrite app_length; simpl.
  replace (length l + 1 - n) with 0 by lia. replace (length l - n) with 0 by lia. reflexivity.
Qed.

Lemma tl_skipn (A : Type) n (l : list A) : tl (skipn n l) = skipn (S n) l.
Proof. revert n; induction l as [|y l IH]; intros [|n]; simpl; auto. rewrite IH. now destruct l. Qed.

Lemma lastn_snoc_full (A : Type) n (l : list A) x : 0 < n -> n <= length l ->
  lastn n (l ++ [x]) = tl (lastn n l) ++ [x].
Proof.
  intros Hn H. unfold lastn. rewrite app_length; simpl.
  rewrite tl_skipn. replace (length l + 1 - n) with (S (length l - n)) by lia.
  rewrite skipn_app. replace (S (length l - n) - length l) with 0 by lia. reflexivity.
Qed.

Lemma tail_next_inv n got s x : 0 < n -> tail_inv n got s -> tail_inv n (got ++ [x]) (tail_next n s x).
Proof.
  intros Hn (H1 & H2 & H3 & H4). unfold tail_next.
  destruct (Nat.ltb_spec (length (t_queue s)) n) as [Hlt|Hge]; unfold tail_inv; cbn [t_queue t_end].
  - rewrite !app_length; cbn [length]. rewrite (H3 Hlt) in *.
    repeat split; auto; try lia. unfold content in *. cbn [skipn firstn] in *.
    rewrite app_nil_r in *. rewrite H4. symmetry; apply lastn_snoc_small. lia.
  - rewrite set_nth_length, app_length; cbn [length].
    assert (length (t_queue s) = n) as Hq by lia.
    repeat split; try lia.
    + apply Nat.mod_upper_bound; lia.
    + rewrite (@content_step _ _ x n Hq H2), H4. symmetry. apply lastn_snoc_full; lia.
Qed.

Lemma tail_inv_init n : 0 < n -> tail_inv n [] (MkTail [] 0).
Proof. intros H. unfold tail_inv; simpl. repeat split; auto; lia. Qed.

Lemma tail_keep_feed n : 0 < n -> forall es got s, open_stream es -> tail_inv n got s ->
  exists s', feed (tail_keep n) s es = (s', map Err (errs es), Ok) /\ tail_inv n (got ++ rows es) s'.
Proof.
  intros Hn; induction es as [|e es IH]; intros got s He Hs.
  - exists s. simpl. now rewrite app_nil_r.
  - apply open_cons in He; destruct He as [He Hes].
    destruct e as [x|e|e|]; try discriminate; cbn [feed]; unfold deliver;
      cbn [as_input step tail_keep mk_op].
    + destruct (IH (got ++ [wrap x]) (tail_next n s (wrap x)) Hes (tail_next_inv (wrap x) Hn Hs))
        as (s' & E & Hinv).
      exists s'. cbn [rows errs]. rewrite <- app_assoc in Hinv. split; [|exact Hinv].
      unfold tail_next in E. cbn [St tail_keep mk_op] in E.
      destruct (Nat.ltb (length (t_queue s)) n); cbn [caught]; rewrite E; reflexivity.
    + destruct (IH got s Hes Hs) as (s' & E & Hinv). exists s'. cbn [caught].
      cbn [St tail_keep mk_op] in E. rewrite E. split; auto.
    + destruct (IH got s Hes Hs) as (s' & E & Hinv). exists s'. cbn [caught].
      cbn [St tail_keep mk_op] in E. rewrite E. split; auto.
Qed.

Lemma tail_keep_exec n es : 0 < n -> open_stream es ->
  exec (tail_keep n) (es, Ok) =
  (map Err (errs es) ++ map Data (lastn n (rows es)) ++ [Flush; Flush], Ok).
Proof.
  intros Hn He. rewrite exec_through. unfold through. cbn [setup tail_keep mk_op fresh].
  rewrite feed_app.
  destruct (tail_keep_feed Hn He (tail_inv_init Hn)) as (s' & E & (H1 & H2 & H3 & H4)).
  cbn [St tail_keep mk_op app] in *. rewrite E. cbn [feed]. unfold deliver.
  cbn [as_input step tail_keep mk_op caught].
  rewrite tail_emit_content by (auto; lia). rewrite H4, app_nil_r. reflexivity.
Qed.

Lemma tail_skip_feed n : 0 < n -> forall es got s, open_stream es -> tail_inv n got s ->
  exists s' out, feed (tail_skip n) s es = (s', out, Ok) /\ tail_inv n (got ++ rows es) s' /\
    errs out = errs es /\
    rows (map Data (firstn (length got - n) got) ++ out) =
      map wrap (firstn (length got - n) got) ++
      map wrap (skipn (length got - n) (firstn (length (got ++ rows es) - n) (got ++ rows es))).
Proof.
  intros Hn; induction es as [|e es IH]; intros got s He Hs.
  - exists s, []. simpl. rewrite !app_nil_r, rows_map_Data. repeat split; auto; try apply Hs.
    rewrite (skipn_all2 (n := length got - n)) by (rewrite firstn_length; lia).
    simpl. now rewrite app_nil_r.
  - apply open_cons in He; destruct He as [He Hes].
    destruct e as [x|e|e|]; try discriminate; cbn [feed]; unfold deliver;
      cbn [as_input step tail_skip mk_op].
    + destruct (IH (got ++ [wrap x]) (tail_next n s (wrap x)) Hes (tail_next_inv (wrap x) Hn Hs))
        as (s' & out & E & Hinv & Herr & Hrows).
      rewrite <- !app_assoc in Hinv, Hrows. cbn [app] in Hinv, Hrows.
      destruct Hs as (H1 & H2 & H3 & H4).
      exists s'. unfold tail_next in E. cbn [St tail_skip mk_op] in E. cbn [rows errs].
      rewrite rows_app, rows_map_Data in Hrows. apply app_inv_head in Hrows.
      destruct (Nat.ltb_spec (length (t_queue s)) n) as [Hlt|Hge]; cbn [caught].
      * rewrite E. exists out. cbn [app]. repeat split; auto; try apply Hinv.
        rewrite rows_app, rows_map_Data. f_equal.
        rewrite app_length in Hrows; cbn [length] in Hrows. rewrite Hrows.
        replace (length got + 1 - n) with 0 by lia. replace (length got - n) with 0 by lia. reflexivity.
      * rewrite E. exists ([Data (nth (t_end s) (t_queue s) VNone)] ++ out).
        split; [reflexivity|]. split; [exact Hinv|]. split; [exact Herr|].
        rewrite !rows_app, rows_map_Data. f_equal.
        rewrite app_length in Hrows; cbn [length] in Hrows.
        rewrite Hrows. cbn [rows app].
        assert (length got >= n) as Hg by lia.
        pose proof (@content_hd (t_queue s) (t_end s) ltac:(lia)) as Hhd.
        rewrite H4 in Hhd. unfold lastn in Hhd.
        set (k := length got - n) in *. replace (length got + 1 - n) with (S k) by lia.
        set (m := length (got ++ wrap x :: rows es) - n).
        set (all := got ++ wrap x :: rows es) in *.
        assert (k < m) as Hkm by (unfold m, all; rewrite app_length; simpl; lia).
        assert (k < length (firstn m all)) as Hk.
        { rewrite firstn_length. unfold m, all. rewrite app_length; simpl. lia. }
        rewrite (@skipn_nth_cons _ VNone k (firstn m all) Hk). cbn [map]. f_equal.
        assert (nth k (firstn m all) VNone = nth (t_end s) (t_queue s) VNone) as ->; [|reflexivity].
        assert (forall (l : list val) j i d, i < j -> nth i (firstn j l) d = nth i l d) as Hnf.
        { induction l as [|y l IHl]; intros [|j] [|i] d Hij; simpl; auto; try lia. apply IHl; lia. }
        rewrite Hnf by lia. unfold all. rewrite app_nth1 by lia.
        rewrite (@skipn_nth_cons _ VNone k got) in Hhd by lia. congruence.
    + destruct (IH got s Hes Hs) as (s' & out & E & Hinv & Herr & Hrows). exists s', (Err e :: out).
      cbn [caught]. cbn [St tail_skip mk_op] in E. rewrite E. cbn [rows errs].
      rewrite rows_app in *. cbn [rows errs]. repeat split; auto; try apply Hinv; congruence.
    + destruct (IH got s Hes Hs) as (s' & out & E & Hinv & Herr & Hrows). exists s', (Err e :: out).
      cbn [caught]. cbn [St tail_skip mk_op] in E. rewrite E. cbn [rows errs].
      rewrite rows_app in *. cbn [rows errs]. repeat split; auto; try apply Hinv; congruence.
Qed.

Lemma map_wrap_rows es : map wrap (rows es) = rows es.
Proof. induction es as [|[x|e|e|] es IH]; simpl; auto. now rewrite wrap_wrap, IH. Qed.

Lemma tail_skip_exec n es : 0 < n -> open_stream es ->
  exists out, exec (tail_skip n) (es, Ok) = (out ++ [Flush], Ok) /\
    errs out = errs es /\ rows out = firstn (length (rows es) - n) (rows es).
Proof.
  intros Hn He. rewrite exec_through. unfold through. cbn [setup tail_skip mk_op fresh].
  rewrite feed_app.
  destruct (tail_skip_feed Hn He (tail_inv_init Hn)) as (s' & out & E & _ & Herr & Hrows).
  exists out. cbn [St tail_skip mk_op app length Nat.sub firstn map skipn] in *. rewrite E.
  repeat split; auto. rewrite Hrows, <- firstn_map, map_wrap_rows. reflexivity.
Qed.
