(** VecProofs.v -- lemmas about the slice memory and the vector loops. *)
From Coq Require Import Permutation Sorted.
From Verif Require Import Base BaseLemmas Effect CmpSpec VecModel VecSpec VecHistory.

Lemma nth_list_set : forall A (l : list A) i j x d,
  nth j (list_set l i x) d = if andb (j =? i) (i <? length l) then x else nth j l d.
Proof.
  induction l as [|a l IH]; intros i j x d; cbn [list_set length].
  - destruct i, j; cbn; rewrite ?andb_false_r; reflexivity.
  - destruct i, j; cbn [nth list_set]; try reflexivity.
    rewrite IH. reflexivity.
Qed.

Lemma nth_app_fresh : forall A (l : list A) x i d, i < length l -> nth i (l ++ [x]) d = nth i l d.
Proof. intros. apply app_nth1; auto. Qed.

Lemma nth_app_last : forall A (l : list A) x d, nth (length l) (l ++ [x]) d = x.
Proof. intros. rewrite app_nth2 by lia. now rewrite Nat.sub_diag. Qed.

Lemma firstn_exact : forall A (a b : list A) n, n = length a -> firstn n (a ++ b) = a.
Proof. intros; subst. rewrite firstn_app, Nat.sub_diag, firstn_all, firstn_O, app_nil_r. reflexivity. Qed.

Section Slices.
  Context {T : Type}.
  Variable zero : T.
  Variable extra : nat -> nat -> nat.
  Notation mem := (mem T).

  Definition valid (m : mem) (s : slice) : Prop := arr s < length m /\ slen s <= scap m s.

  (** An operation took (m, s) to (m', s'), touching no array but s's own. *)
  Definition local (m : mem) (s : slice) (m' : mem) (s' : slice) : Prop :=
    valid m' s' /\ (arr s' = arr s \/ length m <= arr s') /\ length m <= length m' /\
    forall a, a < length m -> a <> arr s -> nth a m' [] = nth a m [].

  Lemma local_refl : forall m s, valid m s -> local m s m s.
  Proof. unfold local; intuition. Qed.

  Lemma local_trans : forall m s m1 s1 m2 s2,
    local m s m1 s1 -> local m1 s1 m2 s2 -> local m s m2 s2.
  Proof.
    intros m s m1 s1 m2 s2 (V1 & A1 & L1 & F1) (V2 & A2 & L2 & F2).
    split; [auto|]. split; [destruct A1, A2; lia|]. split; [lia|].
    intros a Ha Hn. rewrite F2; [apply F1; auto | lia |].
    destruct A1 as [E|E]; [congruence | lia].
  Qed.

  Lemma contents_length : forall m s, valid m s -> length (contents m s) = slen s.
  Proof. intros m s [_ H]. unfold contents, scap in *. rewrite firstn_length. lia. Qed.

  (** *** The primitives *)
  Lemma make_len_spec : forall (m : mem) n, let (m', s') := make_len zero m n in
    m' = m ++ [repeat zero n] /\ arr s' = length m /\ valid m' s' /\ contents m' s' = repeat zero n.
  Proof.
    intros m n. unfold make_len. split; [reflexivity|]. split; [reflexivity|].
    unfold valid, contents, scap, array; cbn [arr slen]. rewrite nth_app_last, app_length, repeat_length. cbn.
    split; [lia|]. rewrite firstn_all2; [reflexivity | rewrite repeat_length; lia].
  Qed.

  Lemma make_cap_spec : forall (m : mem) n, let (m', s') := make_cap zero m n in
    m' = m ++ [repeat zero n] /\ arr s' = length m /\ valid m' s' /\ contents m' s' = [].
  Proof.
    intros m n. unfold make_cap. split; [reflexivity|]. split; [reflexivity|].
    unfold valid, contents, scap, array; cbn [arr slen]. rewrite nth_app_last, app_length. cbn.
    split; [lia|]. reflexivity.
  Qed.

  (** Replacing a variable by a freshly allocated slice. *)
  Lemma fresh_local : forall (m : mem) s x s',
    arr s' = length m -> valid (m ++ [x]) s' -> local m s (m ++ [x]) s'.
  Proof.
    intros m s x s' A V. split; [auto|]. split; [lia|]. split; [rewrite app_length; lia|].
    intros a Ha _. apply nth_app_fresh; auto.
  Qed.

  Lemma append_spec : forall m s xs, valid m s -> let (m', s') := append zero extra m s xs in
    local m s m' s' /\ contents m' s' = contents m s ++ xs /\ slen s' = slen s + length xs.
  Proof.
    intros m s xs [Ha Hl]. unfold append. set (a := array m s) in *. unfold scap in Hl. fold a in Hl.
    destruct (slen s + length xs <=? length a) eqn:E.
    - apply Nat.leb_le in E.
      assert (N : nth (arr s) (list_set m (arr s) (firstn (slen s) a ++ xs ++ skipn (slen s + length xs) a)) []
                  = firstn (slen s) a ++ xs ++ skipn (slen s + length xs) a).
      { rewrite nth_list_set, Nat.eqb_refl, (proj2 (Nat.ltb_lt _ _) Ha). reflexivity. }
      split; [|split; [|reflexivity]].
      + split; [|split; [left; reflexivity | split; [rewrite list_set_length; lia |]]].
        * unfold valid, scap, array; cbn [arr slen]. rewrite N, list_set_length, !app_length, firstn_length, skipn_length. lia.
        * intros b Hb Hn. rewrite nth_list_set. destruct (Nat.eqb_spec b (arr s)); [contradiction|reflexivity].
      + unfold contents, array; cbn [arr slen]. rewrite N, app_assoc. fold (array m s). fold a.
        apply firstn_exact. rewrite app_length, firstn_length. lia.
    - split; [|split; [|reflexivity]].
      + apply fresh_local; [reflexivity|]. unfold valid, scap, array; cbn [arr slen].
        rewrite nth_app_last, !app_length, firstn_length. cbn. lia.
      + unfold contents, array; cbn [arr slen]. rewrite nth_app_last, app_assoc. fold (array m s). fold a.
        apply firstn_exact. rewrite app_length, firstn_length. lia.
  Qed.

  Lemma store_spec : forall m s d, valid m s -> length d = slen s ->
    local m s (store m s d) s /\ contents (store m s d) s = d.
  Proof.
    intros m s d [Ha Hl] Hd. unfold store.
    assert (N : nth (arr s) (list_set m (arr s) (d ++ skipn (slen s) (array m s))) []
                = d ++ skipn (slen s) (array m s)).
    { rewrite nth_list_set, Nat.eqb_refl, (proj2 (Nat.ltb_lt _ _) Ha). reflexivity. }
    split; [split; [|split; [left; reflexivity | split; [rewrite list_set_length; lia |]]]|].
    - unfold valid, scap, array in *; cbn [arr slen]. rewrite N, list_set_length, app_length. split; [auto|]. lia.
    - intros b Hb Hn. rewrite nth_list_set. destruct (Nat.eqb_spec b (arr s)); [contradiction|reflexivity].
    - unfold contents, array in *. rewrite N. apply firstn_exact. auto.
  Qed.

  Lemma in_place_Ret : forall m s f d, valid m s -> f (contents m s) = Ret d -> length d = slen s ->
    exists m', in_place m s f = Ret m' /\ local m s m' s /\ contents m' s = d.
  Proof.
    intros m s f d V E L. unfold in_place. rewrite E. cbn [bind].
    exists (store m s d). split; [reflexivity|]. apply store_spec; auto.
  Qed.

  Lemma reslice_local : forall m s n, valid m s -> n <= slen s -> local m s m (reslice s n).
  Proof.
    clear zero extra. intros m s n [A L] H. unfold local, valid, reslice, scap, array in *; cbn [arr slen]. intuition lia.
  Qed.
  Lemma reslice_contents : forall (m : mem) s n, n <= slen s ->
    contents m (reslice s n) = firstn n (contents m s).
  Proof. intros. unfold contents, reslice, array; cbn [arr slen]. rewrite firstn_firstn. f_equal. lia. Qed.
  Lemma reslice_store_contents : forall m s d n, valid m s -> length d = slen s -> n <= slen s ->
    contents (store m s d) (reslice s n) = firstn n d.
  Proof. intros m s d n V L H. rewrite reslice_contents by auto. now rewrite (proj2 (store_spec m s d V L)). Qed.

  (** *** List-level loops *)
  Lemma list_set_firstn_skipn : forall (l : list T) i x, i < length l ->
    list_set l i x = firstn i l ++ x :: skipn (S i) l.
  Proof.
    induction l; intros [|i] x H; cbn [length] in H; try lia; cbn; [reflexivity|].
    f_equal. apply IHl. lia.
  Qed.

  Lemma upd_seq_set : forall (l : list T) i x, i < length l -> upd l i x = Ret (seq_set l i x).
  Proof. intros. unfold seq_set. rewrite <- list_set_firstn_skipn by auto. now apply upd_Ret. Qed.

  Lemma idx_nth_error : forall (l : list T) i x, nth_error l i = Some x -> idx l i = Ret x.
  Proof. intros l i x H. unfold idx. now rewrite H. Qed.

  Lemma insert_data : forall (d : list T) i x, i <= length d ->
    bind (shift_right (d ++ [x]) i) (fun d1 => upd d1 i x) = Ret (seq_insert d i x).
  Proof.
    intros d i x H. unfold shift_right. rewrite app_length. cbn [length].
    destruct (Nat.leb_spec (i + 1) (length d + 1)); [|lia]. destruct (Nat.leb_spec i (length d + 1)); [|lia].
    cbn [andb bind].
    assert (E : firstn (length d + 1 - (i + 1)) (skipn i (d ++ [x])) = skipn i d).
    { rewrite skipn_app. apply firstn_exact. rewrite skipn_length. lia. }
    rewrite E.
    rewrite upd_Ret by (rewrite app_length, firstn_length, app_length; cbn; lia).
    rewrite list_set_firstn_skipn by (rewrite app_length, firstn_length, app_length; cbn; lia).
    f_equal. unfold seq_insert. f_equal; [|f_equal].
    - rewrite firstn_app. rewrite firstn_firstn, firstn_length, app_length.
      replace (Nat.min i (i + 1)) with i by lia.
      rewrite firstn_app. replace (i - length d) with 0 by lia. rewrite firstn_O, app_nil_r.
      replace (i - Nat.min (i + 1) (length d + length [x])) with 0 by (cbn [length]; lia).
      rewrite firstn_O, app_nil_r. reflexivity.
    - rewrite skipn_app, firstn_length, app_length. cbn [length].
      rewrite skipn_all2 by (rewrite firstn_length, app_length; cbn; lia).
      replace (S i - Nat.min (i + 1) (length d + 1)) with 0 by lia. reflexivity.
  Qed.

  Lemma insert_data_panic : forall (d : list T) i x, length d < i ->
    bind (shift_right (d ++ [x]) i) (fun d1 => upd d1 i x) = Panic.
  Proof.
    intros d i x H. unfold shift_right. rewrite app_length. cbn [length].
    destruct (Nat.leb_spec (i + 1) (length d + 1)); [lia|]. reflexivity.
  Qed.

  Lemma swap_data_spec : forall (d : list T) i j x y,
    nth_error d i = Some x -> nth_error d j = Some y ->
    swap_data d i j = Ret (seq_set (seq_set d i y) j x).
  Proof.
    intros d i j x y Hi Hj. unfold swap_data.
    assert (Li : i < length d) by (apply nth_error_Some; congruence).
    assert (Lj : j < length d) by (apply nth_error_Some; congruence).
    rewrite (idx_nth_error _ _ _ Hi), (idx_nth_error _ _ _ Hj). cbn [bind].
    rewrite upd_seq_set by auto. cbn [bind]. apply upd_seq_set.
    unfold seq_set. rewrite <- list_set_firstn_skipn by auto. rewrite list_set_length. auto.
  Qed.
  Lemma swap_data_panic : forall (d : list T) i j,
    nth_error d i = None \/ nth_error d j = None -> swap_data d i j = Panic.
  Proof.
    intros d i j H. unfold swap_data, idx. destruct (nth_error d j); [|reflexivity].
    destruct (nth_error d i); [|reflexivity]. destruct H; discriminate.
  Qed.
  Lemma seq_set_length : forall (d : list T) i x, i < length d -> length (seq_set d i x) = length d.
  Proof. intros. unfold seq_set. rewrite <- list_set_firstn_skipn by auto. apply list_set_length. Qed.
  Lemma nth_error_seq_set : forall (d : list T) i x k, i < length d ->
    nth_error (seq_set d i x) k = if k =? i then Some x else nth_error d k.
  Proof.
    intros d i x k H. unfold seq_set. rewrite <- list_set_firstn_skipn by auto.
    destruct (Nat.eqb_spec k i).
    - subst. apply nth_error_list_set_eq; auto.
    - apply nth_error_list_set_neq; auto.
  Qed.

  (** General loop invariant. *)
  Lemma oloop_seq : forall S (f : S -> nat -> out S) (P : nat -> S -> Prop) n a s,
    P a s -> (forall i s, a <= i < a + n -> P i s -> exists s', f s i = Ret s' /\ P (Datatypes.S i) s') ->
    exists s', oloop f (seq a n) s = Ret s' /\ P (a + n) s'.
  Proof.
    intros S f P. induction n; intros a s H0 H; cbn [seq oloop].
    - exists s. rewrite Nat.add_0_r. auto.
    - destruct (H a s) as (s1 & E & H1); [lia|auto|]. rewrite E. cbn [bind].
      replace (a + Datatypes.S n) with (Datatypes.S a + n) by lia.
      apply IHn; [auto|]. intros. apply H; [lia|auto].
  Qed.

  Lemma nth_error_rev : forall (l : list T) k, k < length l -> nth_error (rev l) k = nth_error l (length l - 1 - k).
  Proof.
    intros l k H. destruct (nth_error l (length l - 1 - k)) as [x|] eqn:E.
    - pose proof (nth_error_nth' (rev l) x (n := k)) as H1. rewrite rev_length in H1.
      rewrite H1 by auto. rewrite rev_nth by auto.
      f_equal. apply nth_error_nth with (d := x) in E. rewrite <- E at 2. f_equal. lia.
    - apply nth_error_None in E. lia.
  Qed.

  Lemma reverse_data_spec : forall d : list T, reverse_data d = Ret (rev d).
  Proof.
    intros d. unfold reverse_data.
    set (n := length d).
    (* after i steps: positions < i and >= n-i are mirrored *)
    set (P := fun i (e : list T) => length e = n /\ forall k, k < n ->
                nth_error e k = if orb (k <? i) (n - i <=? k) then nth_error d (n - 1 - k) else nth_error d k).
    assert (Hn : n / 2 * 2 <= n) by (rewrite Nat.mul_comm; apply Nat.mul_div_le; lia).
    assert (Hn2 : n < (n / 2 + 1) * 2).
    { pose proof (Nat.mul_succ_div_gt n 2). lia. }
    destruct (oloop_seq _ (fun d i => swap_data d i (length d - 1 - i)) P (n / 2) 0 d) as (e & E & L & H).
    - split; [reflexivity|]. intros k Hk. destruct (Nat.ltb_spec k 0); [lia|].
      destruct (Nat.leb_spec (n - 0) k); [lia|]. reflexivity.
    - intros i e Hi (L & H). rewrite L.
      assert (Xi : exists x, nth_error e i = Some x).
      { destruct (nth_error e i) eqn:Q; eauto. apply nth_error_None in Q. lia. }
      assert (Xj : exists y, nth_error e (n - 1 - i) = Some y).
      { destruct (nth_error e (n - 1 - i)) eqn:Q; eauto. apply nth_error_None in Q. lia. }
      destruct Xi as (x & Hx), Xj as (y & Hy).
      rewrite (swap_data_spec _ _ _ _ _ Hx Hy). eexists. split; [reflexivity|].
      assert (Li : i < length e) by lia. assert (Lj : n - 1 - i < length e) by lia.
      split; [rewrite !seq_set_length; rewrite ?seq_set_length; auto|].
      intros k Hk. rewrite nth_error_seq_set by (rewrite seq_set_length; auto). rewrite nth_error_seq_set by auto.
      rewrite H in Hx by lia. rewrite H in Hy by lia.
      destruct (Nat.ltb_spec i i); [lia|]. destruct (Nat.leb_spec (n - i) i); [lia|]. cbn [orb] in Hx.
      destruct (Nat.ltb_spec (n - 1 - i) i); [lia|]. destruct (Nat.leb_spec (n - i) (n - 1 - i)); [lia|]. cbn [orb] in Hy.
      destruct (Nat.eqb_spec k (n - 1 - i)).
      + subst k. destruct (Nat.ltb_spec (n - 1 - i) (S i)), (Nat.leb_spec (n - S i) (n - 1 - i)); try lia; cbn [orb];
          rewrite <- Hx; f_equal; lia.
      + destruct (Nat.eqb_spec k i).
        * subst k. destruct (Nat.ltb_spec i (S i)); [|lia]. cbn [orb]. symmetry. exact Hy.
        * rewrite H by auto.
          destruct (Nat.ltb_spec k i), (Nat.leb_spec (n - i) k), (Nat.ltb_spec k (S i)), (Nat.leb_spec (n - S i) k);
            try lia; cbn [orb]; try reflexivity.
    - rewrite E. f_equal. apply nth_error_ext. intros k.
      destruct (Nat.ltb_spec k n).
      + rewrite nth_error_rev by auto. rewrite H by auto. fold n.
        destruct (Nat.ltb_spec k (0 + n / 2)), (Nat.leb_spec (n - (0 + n / 2)) k); cbn [orb]; try reflexivity.
        f_equal. lia.
      + rewrite (proj2 (nth_error_None e k)) by lia. symmetry. apply nth_error_None. rewrite rev_length. auto.
  Qed.

  Lemma fill_data_spec : forall x (d : list T), fill_data x d = Ret (map (fun _ => x) d).
  Proof.
    intros x d. unfold fill_data.
    destruct (oloop_seq _ (fun d i => upd d i x)
      (fun i e => length e = length d /\ firstn i e = map (fun _ => x) (firstn i d)) (length d) 0 d) as (e & E & L & H).
    - split; reflexivity.
    - intros i e Hi (L & H). rewrite upd_Ret by lia. eexists. split; [reflexivity|]. split; [rewrite list_set_length; auto|].
      rewrite list_set_firstn_skipn by lia.
      replace (S i) with (i + 1) at 1 by lia.
      rewrite firstn_app, firstn_firstn, firstn_length.
      replace (Nat.min (i + 1) i) with i by lia. replace (Nat.min i (length e)) with i by lia.
      replace (i + 1 - i) with 1 by lia. cbn [firstn]. rewrite H.
      assert (Q : exists y, nth_error d i = Some y).
      { destruct (nth_error d i) eqn:Q; eauto. apply nth_error_None in Q. lia. }
      destruct Q as (y & Q).
      assert (F : firstn (S i) d = firstn i d ++ [y]).
      { clear - Q. revert i Q. induction d; intros [|i] Q; cbn in *; try discriminate; [now inversion Q|].
        f_equal. apply IHd. auto. }
      change (map (fun _ : T => x) (firstn i d) ++ [x] = map (fun _ : T => x) (firstn (S i) d)).
      rewrite F, map_app. reflexivity.
    - rewrite E. cbn [Nat.add] in H. rewrite firstn_all in H. rewrite <- L, firstn_all in H. now rewrite H.
  Qed.

  Lemma firstn_S : forall A (l : list A) i x, nth_error l i = Some x -> firstn (S i) l = firstn i l ++ [x].
  Proof.
    induction l; intros [|i] x Q; cbn in *; try discriminate; [now inversion Q|].
    f_equal. apply IHl. auto.
  Qed.

  Lemma skipn_nth : forall A (l : list A) i x, nth_error l i = Some x -> skipn i l = x :: skipn (S i) l.
  Proof.
    induction l; intros [|i] x Q; cbn in *; try discriminate; [now inversion Q|]. apply IHl. auto.
  Qed.

  (** Dedup: after i steps the kept prefix is the dedup of what was read. *)
  Lemma dedup_snoc : forall (deq : T -> T -> bool) l k x,
    dedup_after deq k (l ++ [x]) =
      dedup_after deq k l ++ (if deq (last (dedup_after deq k l) k) x then [] else [x]).
  Proof.
    intros deq. induction l as [|y l IH]; intros k x; cbn [dedup_after app].
    - cbn. destruct (deq k x); reflexivity.
    - destruct (deq k y); [apply IH|]. rewrite IH. cbn [app]. f_equal. f_equal.
      assert (Q : forall d d' (m : list T), last (y :: m) d = last (y :: m) d').
      { intros d d' m. revert y. induction m; intros; [reflexivity|]. cbn [last]. apply (IHm a). }
      assert (Q2 : last (dedup_after deq y l) y = last (y :: dedup_after deq y l) k).
      { destruct (dedup_after deq y l) eqn:E2; [reflexivity|]. cbn [last]. clear.
        revert t. induction l0; intros; [reflexivity|]. cbn [last]. apply IHl0. }
      rewrite Q2. reflexivity.
  Qed.

  Lemma last_nth_error : forall (l : list T) x d, last (x :: l) d = nth (length l) (x :: l) d.
  Proof.
    induction l; intros; [reflexivity|]. exact (IHl a d).
  Qed.

  Lemma dedup_data_spec : forall deq x (l : list T), exists e,
    dedup_data deq (x :: l) = Ret (e, length (dedup_after deq x l)) /\
    length e = S (length l) /\ firstn (S (length (dedup_after deq x l))) e = dedup deq (x :: l).
  Proof.
    intros deq x l. unfold dedup_data. cbn [length]. replace (S (length l) - 1) with (length l) by lia.
    set (D := x :: l).
    set (P := fun i (st : list T * nat) => let '(e, prev) := st in
       length e = S (length l) /\ prev = length (dedup_after deq x (firstn (i - 1) l)) /\ prev < i /\
       firstn (S prev) e = x :: dedup_after deq x (firstn (i - 1) l) /\
       skipn i e = skipn i D).
    destruct (oloop_seq _ (dedup_step deq) P (length l) 1 (D, 0)) as ([e prev] & E & H).
    - unfold P. cbn. repeat split; auto.
    - intros i [e prev] Hi (L & Hp & Hlt & Hf & Hs). unfold dedup_step.
      assert (Q : exists b, nth_error D i = Some b).
      { destruct (nth_error D i) eqn:Q; eauto. apply nth_error_None in Q. cbn in Q. lia. }
      destruct Q as (b & Q).
      assert (Qe : nth_error e i = Some b).
      { rewrite <- (Nat.add_0_r i), <- nth_error_skipn. rewrite Hs, (skipn_nth _ _ _ _ Q). reflexivity. }
      assert (Qp : nth_error e prev = Some (last (x :: dedup_after deq x (firstn (i - 1) l)) x)).
      { assert (nth_error (firstn (S prev) e) prev = nth_error e prev).
        { clear. revert e. induction prev; intros [|y e]; cbn in *; auto. }
        rewrite <- H. rewrite Hf, last_nth_error, <- Hp. apply nth_error_nth'. cbn [length]. lia. }
      rewrite (idx_nth_error _ _ _ Qp), (idx_nth_error _ _ _ Qe). cbn [bind].
      assert (Fl : firstn (S i - 1) l = firstn (i - 1) l ++ [b]).
      { destruct i; [lia|]. replace (S (S i) - 1) with (S i) by lia. replace (S i - 1) with i by lia.
        apply firstn_S. exact Q. }
      assert (Lq : last (x :: dedup_after deq x (firstn (i - 1) l)) x = last (dedup_after deq x (firstn (i - 1) l)) x).
      { destruct (dedup_after deq x (firstn (i - 1) l)); reflexivity. }
      rewrite Lq. pose proof (dedup_snoc deq (firstn (i - 1) l) x b) as DS. rewrite <- Fl in DS.
      destruct (deq (last (dedup_after deq x (firstn (i - 1) l)) x) b) eqn:Eq.
      + eexists. split; [reflexivity|]. unfold P. rewrite DS, app_nil_r.
        repeat split; auto. 
        rewrite (skipn_nth _ _ _ _ Qe), (skipn_nth _ _ _ _ Q) in Hs. now inversion Hs.
      + rewrite upd_Ret by lia. cbn [bind]. eexists. split; [reflexivity|]. unfold P. rewrite DS, app_length. cbn [length].
        split; [rewrite list_set_length; auto|]. split; [lia|]. split; [lia|]. split.
        * rewrite list_set_firstn_skipn by lia. replace (prev + 1) with (S prev) by lia. rewrite Hf.
          change (S (S prev)) with (S (S prev)). rewrite firstn_app.
          cbn [length]. rewrite <- Hp. replace (S (S prev) - S prev) with 1 by lia.
          rewrite firstn_all2 by (cbn [length]; lia). reflexivity.
        * rewrite list_set_firstn_skipn by lia. replace (prev + 1) with (S prev) by lia.
          rewrite skipn_app. rewrite skipn_all2 by (rewrite firstn_length; lia).
          rewrite firstn_length. replace (Nat.min (S prev) (length e)) with (S prev) by lia.
          assert (K : S i - S prev = S (i - S prev)) by lia. rewrite K. rewrite skipn_cons, app_nil_l.
          assert (SS : forall n m (l : list T), skipn n (skipn m l) = skipn (m + n) l).
          { clear. intros n m. revert n. induction m; intros n [|y l]; cbn; auto. destruct n; reflexivity. }
          rewrite SS. replace (S (S prev) + (i - S prev)) with (S i) by lia.
          rewrite (skipn_nth _ _ _ _ Qe), (skipn_nth _ _ _ _ Q) in Hs. now inversion Hs.
    - unfold P in H. destruct H as (L & Hp & Hlt & Hf & Hs).
      replace (1 + length l - 1) with (length l) in * by lia. rewrite firstn_all in Hp, Hf.
      exists e. rewrite E. subst prev. repeat split; auto.
  Qed.
End Slices.

(** *** Methods that build a new array *)
Section Build.
  Context {T : Type}.
  Variable zero : T.
  Variable extra : nat -> nat -> nat.
  Notation mem := (mem T).

  Lemma retain_loop : forall (p : T -> bool) l m n, valid m n ->
    let '(m', n') := fold_left (fun st value => let '(m, n) := st in
        if p value then append zero extra m n [value] else (m, n)) l (m, n) in
    local m n m' n' /\ contents m' n' = contents m n ++ filter p l.
  Proof.
    intros p. induction l as [|x l IH]; intros m n V; cbn [fold_left filter].
    - split; [apply local_refl; auto | now rewrite app_nil_r].
    - destruct (p x).
      + pose proof (append_spec zero extra m n [x] V) as A. destruct (append zero extra m n [x]) as [m1 n1].
        destruct A as (L & C & _). specialize (IH m1 n1 (proj1 L)).
        destruct (fold_left _ l (m1, n1)) as [m2 n2]. destruct IH as (L2 & C2).
        split; [eapply local_trans; eauto|]. rewrite C2, C, <- app_assoc. reflexivity.
      + apply IH; auto.
  Qed.

  Lemma Retain_spec : forall m v p, valid m v ->
    let (m', v') := Retain zero extra m v p in
    local m v m' v' /\ contents m' v' = filter p (contents m v).
  Proof.
    intros m v p V. unfold Retain. pose proof (make_cap_spec zero m (slen v)) as C.
    destruct (make_cap zero m (slen v)) as [m1 n]. destruct C as (Em & Ea & V1 & C1).
    pose proof (retain_loop p (contents m v) m1 n V1) as R.
    destruct (fold_left _ (contents m v) (m1, n)) as [m2 n2]. destruct R as (L & C2).
    rewrite C1 in C2. cbn [app] in C2. split; [|exact C2].
    assert (L0 : local m v m1 n) by (rewrite Em; apply fresh_local; [auto | now rewrite <- Em]).
    eapply local_trans; eauto.
  Qed.

  Lemma dedup_by_key_loop : forall K (keq : K -> K -> bool) (key : T -> K) l seen m n, valid m n ->
    let '(_, m', n') := fold_left (fun st value => let '(seen, m, n) := st in
        let k := key value in
        if existsb (keq k) seen then (seen, m, n)
        else let (m', n') := append zero extra m n [value] in (k :: seen, m', n')) l (seen, m, n) in
    local m n m' n' /\
    exists kept, contents m' n' = contents m n ++ kept /\
      ((forall a b, keq a b = keq b a) -> (forall a b c, keq a b = true -> keq b c = true -> keq a c = true) ->
       kept = filter (fun y => negb (existsb (keq (key y)) seen)) (keep_first (fun a b => keq (key a) (key b)) l)).
  Proof.
    intros K keq key. induction l as [|x l IH]; intros seen m n V; cbn [fold_left keep_first].
    - split; [apply local_refl; auto|]. exists []. split; [now rewrite app_nil_r | reflexivity].
    - cbv zeta. cbn [filter]. destruct (existsb (keq (key x)) seen) eqn:E.
      + specialize (IH seen m n V). cbv zeta in IH.
        destruct (fold_left _ l (seen, m, n)) as [[s2 m2] n2]. destruct IH as (L & kept & C & H).
        split; [auto|]. exists kept. split; [auto|]. intros S Tr. rewrite (H S Tr).
        cbn [negb]. clear H C kept.
        (* filtering by x's key is subsumed since x's key was seen *)
        induction (keep_first (fun a b => keq (key a) (key b)) l) as [|y r IHr]; [reflexivity|].
        cbn [filter]. destruct (keq (key x) (key y)) eqn:Exy; cbn [negb].
        * assert (Ey : existsb (keq (key y)) seen = true).
          { apply existsb_exists in E. destruct E as (k & Hk & Ek). apply existsb_exists. exists k. split; [auto|].
            eapply Tr; [|exact Ek]. rewrite S. exact Exy. }
          rewrite Ey. cbn [negb]. exact IHr.
        * cbn [filter]. destruct (negb (existsb (keq (key y)) seen)); [f_equal|]; exact IHr.
      + pose proof (append_spec zero extra m n [x] V) as A. destruct (append zero extra m n [x]) as [m1 n1].
        destruct A as (L & C & _). specialize (IH (key x :: seen) m1 n1 (proj1 L)). cbv zeta in IH.
        destruct (fold_left _ l (key x :: seen, m1, n1)) as [[s2 m2] n2]. destruct IH as (L2 & kept & C2 & H).
        split; [eapply local_trans; eauto|]. exists (x :: kept). split.
        * rewrite C2, C, <- app_assoc. reflexivity.
        * intros S Tr. cbn [negb]. f_equal. rewrite (H S Tr). clear - S.
          induction (keep_first (fun a b => keq (key a) (key b)) l) as [|y r IHr]; [reflexivity|].
          cbn [filter existsb]. rewrite (S (key x) (key y)).
          destruct (keq (key y) (key x)); cbn [orb negb]; [exact IHr|]. cbn [filter].
          destruct (negb (existsb (keq (key y)) seen)); [f_equal|]; exact IHr.
  Qed.

  Lemma filter_all : forall A (f : A -> bool) l, (forall x, f x = true) -> filter f l = l.
  Proof. intros A f l H. induction l; cbn; [reflexivity|]. rewrite H. now f_equal. Qed.

  Lemma DedupByKey_spec : forall K (keq : K -> K -> bool) m v (key : T -> K), valid m v ->
    let (m', v') := DedupByKey zero extra keq m v key in
    local m v m' v' /\
    ((forall a b, keq a b = keq b a) -> (forall a b c, keq a b = true -> keq b c = true -> keq a c = true) ->
     contents m' v' = keep_first (fun a b => keq (key a) (key b)) (contents m v)).
  Proof.
    intros K keq m v key V. unfold DedupByKey. pose proof (make_cap_spec zero m (slen v)) as C.
    destruct (make_cap zero m (slen v)) as [m1 n]. destruct C as (Em & Ea & V1 & C1).
    pose proof (dedup_by_key_loop K keq key (contents m v) [] m1 n V1) as R. cbv zeta in R.
    destruct (fold_left _ (contents m v) ([], m1, n)) as [[s2 m2] n2]. destruct R as (L & kept & C2 & H).
    assert (L0 : local m v m1 n) by (rewrite Em; apply fresh_local; [auto | now rewrite <- Em]).
    split; [eapply local_trans; eauto|]. intros S Tr. rewrite C2, C1, (H S Tr). cbn [app existsb negb].
    apply filter_all. auto.
  Qed.

  Lemma clone_data_spec : forall (clone : T -> T) d, clone_data zero (Some clone) d = Ret (map clone d).
  Proof.
    intros clone d. unfold clone_data.
    destruct (oloop_seq _ (fun out i => x <- idx d i ;; c <- of_option (Some clone) ;; upd out i (c x))
      (fun i e => length e = length d /\ firstn i e = map clone (firstn i d)) (length d) 0 (repeat zero (length d)))
      as (e & E & L & H).
    - rewrite repeat_length. split; reflexivity.
    - intros i e Hi (L & H).
      assert (Q : exists y, nth_error d i = Some y).
      { destruct (nth_error d i) eqn:Q; eauto. apply nth_error_None in Q. lia. }
      destruct Q as (y & Q). rewrite (idx_nth_error _ _ _ Q). cbn [bind of_option].
      rewrite upd_Ret by lia. eexists. split; [reflexivity|]. split; [rewrite list_set_length; auto|].
      rewrite (firstn_S _ _ _ _ Q), map_app, <- H.
      rewrite list_set_firstn_skipn by lia.
      rewrite firstn_app, firstn_firstn, firstn_length.
      replace (Nat.min (S i) i) with i by lia. replace (S i - Nat.min i (length e)) with 1 by lia. reflexivity.
    - rewrite E. cbn [Nat.add] in H. rewrite firstn_all in H. rewrite <- L, firstn_all in H. now rewrite H.
  Qed.

  Lemma Clone_spec : forall clone m v, valid m v -> exists m' c,
    Clone zero (Some clone) m v = Ret (m', c) /\ arr c = length m /\ valid m' c /\
    contents m' c = map clone (contents m v) /\ length m < length m' /\
    forall a, a < length m -> nth a m' [] = nth a m [].
  Proof.
    intros clone m v V. unfold Clone. pose proof (make_len_spec zero m (slen v)) as C.
    destruct (make_len zero m (slen v)) as [m1 n] eqn:En. destruct C as (Em & Ea & V1 & C1).
    rewrite clone_data_spec. cbn [bind]. exists (store m1 n (map clone (contents m v))), n.
    assert (Ln : slen n = slen v) by (unfold make_len in En; inversion En; reflexivity).
    destruct (store_spec m1 n (map clone (contents m v)) V1) as ((V2 & _ & L2 & F2) & C2).
    { rewrite map_length, contents_length; auto. }
    assert (Lm : length m1 = S (length m)) by (rewrite Em, app_length; cbn; lia).
    split; [reflexivity|]. split; [auto|]. split; [auto|]. split; [auto|].
    split; [lia|]. intros a Ha. rewrite F2 by lia. rewrite Em. apply nth_app_fresh; auto.
  Qed.

  Lemma eq_loop_spec : forall (eqb : T -> T -> bool) n i a b, length a = length b -> length a = i + n ->
    eq_loop (Some eqb) n i a b = Ret (same_elements eqb (skipn i a) (skipn i b)).
  Proof.
    intros eqb. induction n; intros i a b E L; cbn [eq_loop].
    - rewrite !skipn_all2 by lia. reflexivity.
    - assert (Qa : exists x, nth_error a i = Some x).
      { destruct (nth_error a i) eqn:Q; eauto. apply nth_error_None in Q. lia. }
      assert (Qb : exists x, nth_error b i = Some x).
      { destruct (nth_error b i) eqn:Q; eauto. apply nth_error_None in Q. lia. }
      destruct Qa as (x & Qa), Qb as (y & Qb).
      rewrite (idx_nth_error _ _ _ Qa), (idx_nth_error _ _ _ Qb). cbn [bind of_option].
      rewrite (skipn_nth _ _ _ _ Qa), (skipn_nth _ _ _ _ Qb). cbn [same_elements].
      destruct (eqb x y); cbn [negb andb]; [|reflexivity].
      rewrite IHn by lia. now rewrite Nat.add_1_r.
  Qed.

  Lemma same_elements_length : forall (eqb : T -> T -> bool) a b, length a <> length b -> same_elements eqb a b = false.
  Proof.
    intros eqb. induction a; intros [|b bs] H; cbn in *; try reflexivity; [lia|].
    rewrite IHa by lia. apply andb_false_r.
  Qed.

  Lemma Eq_spec : forall eqb (m : mem) v w, valid m v -> valid m w ->
    Eq (Some eqb) m v w = Ret (same_elements eqb (contents m v) (contents m w)).
  Proof.
    intros eqb m v w V W. unfold Eq, Len.
    destruct (Nat.eqb_spec (slen v) (slen w)) as [E|E]; cbn [negb].
    - rewrite eq_loop_spec by (rewrite ?contents_length; auto). reflexivity.
    - rewrite same_elements_length; [reflexivity|]. rewrite !contents_length; auto.
  Qed.
End Build.

(** *** Histories *)
Section History.
  Context {T : Type}.
  Variable zero : T.
  Variable extra : nat -> nat -> nat.
  Variable eqb deq : T -> T -> bool.
  Variable clone : T -> T.
  Notation world := (@world T).

  (** Every variable has an array of its own. *)
  Definition separate (w : world) : Prop :=
    Forall (valid (fst w)) (snd w) /\ NoDup (map arr (snd w)).

  Lemma put_list_set : forall A (s : list (list A)) v l, v < length s -> put s v l = list_set s v l.
  Proof. intros. unfold put. symmetry. apply (list_set_firstn_skipn (T := list A)). auto. Qed.

  Lemma map_list_set : forall A B (f : A -> B) l i x, map f (list_set l i x) = list_set (map f l) i (f x).
  Proof. induction l; intros [|i] x; cbn; try reflexivity. now rewrite IHl. Qed.

  Lemma list_set_ext : forall A (l l' : list A) i x, length l = length l' ->
    (forall j, j <> i -> nth_error l j = nth_error l' j) -> list_set l i x = list_set l' i x.
  Proof.
    intros A l l' i x E H. apply nth_error_ext. intros j.
    destruct (Nat.eq_dec j i) as [->|N].
    - destruct (Nat.ltb_spec i (length l)).
      + rewrite !nth_error_list_set_eq by lia. reflexivity.
      + rewrite !list_set_out by lia. rewrite (proj2 (nth_error_None l i)), (proj2 (nth_error_None l' i)) by lia. reflexivity.
    - rewrite !nth_error_list_set_neq by auto. auto.
  Qed.

  Lemma view_list_set : forall m vs v s l, contents m s = l ->
    map (contents m) (list_set vs v s) = list_set (map (contents (T := T) m) vs) v l.
  Proof. intros. rewrite map_list_set. now subst. Qed.

  (** One variable replaced by the result of a local operation. *)
  Lemma update_separate : forall m vs v s m' s',
    separate (m, vs) -> nth_error vs v = Some s -> local m s m' s' ->
    separate (m', list_set vs v s') /\
    view (m', list_set vs v s') = list_set (view (m, vs)) v (contents m' s').
  Proof.
    intros m vs v s m' s' [Fv Nd] Hv (Vs & As & Lm & Fr). cbn [fst snd] in *.
    assert (Lv : v < length vs) by (apply nth_error_Some; congruence).
    assert (Inj : forall j t, nth_error vs j = Some t -> j <> v -> arr t <> arr s).
    { intros j t Hj Hn Eq. rewrite NoDup_nth_error in Nd. apply Hn, Nd.
      - rewrite map_length. apply nth_error_Some. congruence.
      - rewrite !nth_error_map, Hj, Hv. cbn. congruence. }
    assert (Old : forall j t, nth_error vs j = Some t -> arr t < length m).
    { intros j t Hj. rewrite Forall_forall in Fv. apply (Fv t). eapply nth_error_In; eauto. }
    assert (Keep : forall j t, nth_error vs j = Some t -> j <> v -> array m' t = array m t).
    { intros j t Hj Hn. unfold array. apply Fr; eauto. }
    split; [split|]; cbn [fst snd].
    - apply Forall_forall. intros t Ht. apply In_nth_error in Ht. destruct Ht as (j & Hj).
      destruct (Nat.eq_dec j v) as [->|N].
      + rewrite nth_error_list_set_eq in Hj by auto. inversion Hj; subst; auto.
      + rewrite nth_error_list_set_neq in Hj by auto.
        pose proof (proj1 (Forall_forall _ _) Fv t (nth_error_In _ _ Hj)) as [V1 V2].
        split; [lia|]. unfold scap in *. rewrite (Keep j t) by auto. auto.
    - rewrite map_list_set. apply NoDup_nth_error. intros i j Hi Hij.
      rewrite list_set_length, map_length in Hi.
      assert (Hj : j < length vs).
      { rewrite <- (map_length arr vs), <- (list_set_length (map arr vs) v (arr s')). apply nth_error_Some.
        rewrite <- Hij. apply nth_error_Some. rewrite list_set_length, map_length. auto. }
      destruct (Nat.eq_dec i v) as [->|Ni], (Nat.eq_dec j v) as [->|Nj]; try reflexivity.
      + rewrite nth_error_list_set_eq, nth_error_list_set_neq, nth_error_map in Hij by (rewrite ?map_length; auto).
        destruct (nth_error vs j) as [t|] eqn:Ht; [|apply nth_error_None in Ht; lia]. cbn in Hij. inversion Hij.
        exfalso. pose proof (Old j t Ht). pose proof (Inj j t Ht Nj). lia.
      + rewrite nth_error_list_set_eq, nth_error_list_set_neq, nth_error_map in Hij by (rewrite ?map_length; auto).
        destruct (nth_error vs i) as [t|] eqn:Ht; [|apply nth_error_None in Ht; lia]. cbn in Hij. inversion Hij.
        exfalso. pose proof (Old i t Ht). pose proof (Inj i t Ht Ni). lia.
      + rewrite !nth_error_list_set_neq in Hij by auto. rewrite NoDup_nth_error in Nd. apply Nd; [now rewrite map_length | auto].
    - unfold view; cbn [fst snd]. rewrite map_list_set. apply list_set_ext; [now rewrite !map_length|].
      intros j Hj. rewrite !nth_error_map. destruct (nth_error vs j) as [t|] eqn:Ht; [|reflexivity]. cbn.
      f_equal. unfold contents. now rewrite (Keep j t Ht Hj).
  Qed.

  Lemma list_set_id : forall A (l : list A) i x, nth_error l i = Some x -> list_set l i x = l.
  Proof. intros. apply list_set_same; auto. Qed.

  Lemma update_in_place : forall m vs v s m' d,
    separate (m, vs) -> nth_error vs v = Some s -> local m s m' s -> contents m' s = d ->
    separate (m', vs) /\ view (m', vs) = list_set (view (m, vs)) v d.
  Proof.
    intros m vs v s m' d S Hv L C.
    pose proof (update_separate m vs v s m' s S Hv L) as U. rewrite (list_set_id _ vs v s Hv), C in U. exact U.
  Qed.

  Lemma declare_separate : forall m vs m' s',
    separate (m, vs) -> arr s' = length m -> valid m' s' -> length m <= length m' ->
    (forall a, a < length m -> nth a m' [] = nth a m []) ->
    separate (m', vs ++ [s']) /\ view (m', vs ++ [s']) = view (m, vs) ++ [contents m' s'].
  Proof.
    intros m vs m' s' [Fv Nd] A V L F. cbn [fst snd] in *. rewrite Forall_forall in Fv.
    split; [split|]; cbn [fst snd].
    - apply Forall_forall. intros t Ht. apply in_app_or in Ht. destruct Ht as [Ht|[<-|[]]]; [|auto].
      destruct (Fv t Ht) as [V1 V2]. split; [lia|]. unfold scap, array in *. now rewrite F.
    - rewrite map_app. cbn [map]. 
      assert (Hn : ~ In (arr s') (map arr vs)).
      { intros H. apply in_map_iff in H. destruct H as (t & E & Ht). destruct (Fv t Ht). lia. }
      clear - Nd Hn. induction (map arr vs) as [|x l IH]; cbn; [constructor; [auto|constructor]|].
      inversion Nd; subst. constructor.
      + rewrite in_app_iff. cbn. intros [H|[H|[]]]; [auto|]. apply Hn. left. auto.
      + apply IH; [auto|]. intros H. apply Hn. right. auto.
    - unfold view; cbn [fst snd]. rewrite map_app. cbn [map]. f_equal.
      apply map_ext_in. intros t Ht. unfold contents, array. rewrite F; [reflexivity|]. apply (Fv t Ht).
  Qed.

  Lemma view_nth : forall m vs v s, nth_error vs v = Some s -> nth_error (view (m, vs)) v = Some (contents (T := T) m s).
  Proof. intros. unfold view; cbn [fst snd]. now rewrite nth_error_map, H. Qed.
  Lemma view_none : forall (m : mem T) vs v, nth_error vs v = None -> nth_error (view (m, vs)) v = None.
  Proof. intros. unfold view; cbn [fst snd]. now rewrite nth_error_map, H. Qed.
  Lemma view_length : forall (m : mem T) vs, length (view (m, vs)) = length vs.
  Proof. intros. unfold view. apply map_length. Qed.

  Lemma removelast_firstn_last : forall (l : list T), l <> [] -> removelast l = firstn (length l - 1) l.
  Proof. intros l H. rewrite removelast_firstn_len. f_equal. lia. Qed.

  (** One step: same outcome, same answer, same visible contents. *)
  Lemma exec_step : forall w o, separate w ->
    match step zero eqb deq clone (view w) o with
    | Some (s', a) => exists w', exec zero extra eqb deq clone w o = Ret (w', a) /\ separate w' /\ view w' = s'
    | None => exec zero extra eqb deq clone w o = Panic
    end.
  Proof.
    intros [m vs] o Sep.
    assert (VV : forall v s, nth_error vs v = Some s -> valid m s).
    { intros v s H. destruct Sep as [Fv _]. cbn in Fv. rewrite Forall_forall in Fv. apply Fv. eapply nth_error_In; eauto. }
    assert (LV : forall v s, nth_error vs v = Some s -> v < length (view (m, vs))).
    { intros v s H. rewrite view_length. apply nth_error_Some. congruence. }
    Ltac startv v := let s := fresh "s" in let Hv := fresh "Hv" in
      match goal with vs : list slice |- _ =>
        destruct (nth_error vs v) as [s|] eqn:Hv;
        [erewrite view_nth by exact Hv | erewrite view_none by exact Hv] end;
      unfold var; cbn [snd]; rewrite ?Hv; cbn [of_option bind]; try reflexivity.
    destruct o; unfold step; unfold exec.
    - (* ONew *) pose proof (make_len_spec zero m 0) as C. unfold VecNew. destruct (make_len zero m 0) as [m' s'].
      destruct C as (-> & A & V & C). eexists. split; [reflexivity|].
      destruct (declare_separate m vs (m ++ [repeat zero 0]) s') as [D1 D2]; auto.
      { rewrite app_length; lia. } { intros; apply nth_app_fresh; auto. }
      split; [exact D1|]. rewrite C in D2. exact D2.
    - (* OWithCapacity *) pose proof (make_cap_spec zero m n) as C. unfold VecWithCapacity. destruct (make_cap zero m n) as [m' s'].
      destruct C as (-> & A & V & C). eexists. split; [reflexivity|].
      destruct (declare_separate m vs (m ++ [repeat zero n]) s') as [D1 D2]; auto.
      { rewrite app_length; lia. } { intros; apply nth_app_fresh; auto. }
      split; [exact D1|]. rewrite C in D2. exact D2.
    - (* OWithLen *) pose proof (make_len_spec zero m n) as C. unfold VecWithLen. destruct (make_len zero m n) as [m' s'].
      destruct C as (-> & A & V & C). eexists. split; [reflexivity|].
      destruct (declare_separate m vs (m ++ [repeat zero n]) s') as [D1 D2]; auto.
      { rewrite app_length; lia. } { intros; apply nth_app_fresh; auto. }
      split; [exact D1|]. rewrite C in D2. exact D2.
    - (* OClone *) startv v.
      destruct (Clone_spec zero clone m s (VV _ _ Hv)) as (m' & c & E & A & V & C & L & F).
      rewrite E. cbn [bind]. eexists. split; [reflexivity|].
      destruct (declare_separate m vs m' c) as [D1 D2]; auto; [lia|].
      split; [exact D1|]. rewrite C in D2. exact D2.
    - (* OPush *) startv v. unfold Push.
      pose proof (append_spec zero extra m s [x] (VV _ _ Hv)) as A. destruct (append zero extra m s [x]) as [m' s'].
      destruct A as (L & C & _). eexists. split; [reflexivity|].
      destruct (update_separate m vs v s m' s' Sep Hv L) as [U1 U2]. split; [exact U1|].
      unfold assign. rewrite U2, C, put_list_set by eauto. reflexivity.
    - (* OPop *) startv v. unfold Pop. pose proof (VV _ _ Hv) as V. pose proof (contents_length m s V) as CL.
      destruct (Nat.eqb_spec (slen s) 0) as [E|E].
      + destruct (contents m s) as [|y r] eqn:Ec; [|cbn in CL; lia]. cbn [bind fst snd].
        eexists. split; [reflexivity|]. unfold assign. rewrite (list_set_id _ vs v s Hv). auto.
      + assert (Ne : contents m s <> []) by (intros Q; rewrite Q in CL; cbn in CL; lia).
        destruct (nth_error (contents m s) (slen s - 1)) as [y|] eqn:Hy; [|apply nth_error_None in Hy; lia].
        rewrite (idx_nth_error _ _ _ Hy). cbn [bind fst snd].
        destruct (update_separate m vs v s m (reslice s (slen s - 1)) Sep Hv) as [U1 U2]; [apply reslice_local; auto; lia|].
        assert (La : last (contents m s) zero = y).
        { destruct (contents m s) as [|z r] eqn:Ec; [contradiction|]. rewrite last_nth_error.
          cbn [length] in CL. replace (slen s - 1) with (length r) in Hy by lia. now apply nth_error_nth. }
        destruct (contents m s) as [|z r] eqn:Ec; [contradiction|].
        eexists. split; [rewrite La; reflexivity|]. split; [exact U1|].
        unfold assign. rewrite U2, put_list_set by eauto. f_equal. rewrite reslice_contents by lia.
        rewrite Ec, removelast_firstn_last by auto. f_equal. lia.
    - (* OInsert *) startv v. unfold Insert. pose proof (VV _ _ Hv) as V. pose proof (contents_length m s V) as CL.
      pose proof (append_spec zero extra m s [x] V) as A. destruct (append zero extra m s [x]) as [m1 s1].
      destruct A as (L & C & Ln). destruct (Nat.leb_spec i (length (contents m s))) as [Hi|Hi].
      + destruct (in_place_Ret m1 s1 (fun d => d1 <- shift_right d i ;; upd d1 i x) (seq_insert (contents m s) i x)) as (m2 & E2 & L2 & C2).
        * apply L. * rewrite C. apply insert_data; auto.
        * unfold seq_insert. rewrite app_length, firstn_length. cbn [length]. rewrite skipn_length, Ln. cbn [length]. lia.
        * rewrite E2. cbn [bind fst snd]. eexists. split; [reflexivity|].
          destruct (update_separate m vs v s m2 s1 Sep Hv (local_trans _ _ _ _ _ _ L L2)) as [U1 U2].
          split; [exact U1|]. unfold assign. rewrite U2, C2, put_list_set by eauto. reflexivity.
      + unfold in_place. rewrite C, insert_data_panic by auto. reflexivity.
    - (* OGet *) startv v. unfold Get, Len. pose proof (VV _ _ Hv) as V. pose proof (contents_length m s V) as CL.
      destruct (Nat.leb_spec (slen s) i).
      + rewrite (proj2 (nth_error_None _ _)) by lia. cbn [bind]. eauto.
      + destruct (nth_error (contents m s) i) as [y|] eqn:Hy; [|apply nth_error_None in Hy; lia].
        rewrite (idx_nth_error _ _ _ Hy). cbn [bind]. eauto.
    - (* OGetUnchecked *) startv v. unfold GetUnchecked, idx.
      destruct (nth_error (contents m s) i) as [y|] eqn:Hy; cbn [of_option bind]; eauto.
    - (* OSet *) startv v. unfold Set_, Len. pose proof (VV _ _ Hv) as V. pose proof (contents_length m s V) as CL.
      rewrite CL. destruct (Nat.leb_spec (slen s) i), (Nat.ltb_spec i (slen s)); try lia.
      + unfold idx. rewrite (proj2 (nth_error_None _ _)) by lia. reflexivity.
      + destruct (in_place_Ret m s (fun d => upd d i x) (seq_set (contents m s) i x) V) as (m2 & E2 & L2 & C2).
        * apply upd_seq_set. lia. * rewrite seq_set_length; lia.
        * rewrite E2. cbn [bind fst snd]. eexists. split; [reflexivity|].
          destruct (update_in_place m vs v s m2 _ Sep Hv L2 C2) as [U1 U2]. split; [exact U1|].
          rewrite U2, put_list_set by eauto. reflexivity.
    - (* OSetUnchecked *) startv v. unfold SetUnchecked. pose proof (VV _ _ Hv) as V. pose proof (contents_length m s V) as CL.
      destruct (Nat.ltb_spec i (length (contents m s))).
      + destruct (in_place_Ret m s (fun d => upd d i x) (seq_set (contents m s) i x) V) as (m2 & E2 & L2 & C2).
        * apply upd_seq_set. lia. * rewrite seq_set_length; lia.
        * rewrite E2. cbn [bind fst snd]. eexists. split; [reflexivity|].
          destruct (update_in_place m vs v s m2 _ Sep Hv L2 C2) as [U1 U2]. split; [exact U1|].
          rewrite U2, put_list_set by eauto. reflexivity.
      + unfold in_place, upd. destruct (Nat.ltb_spec i (length (contents m s))); [lia|]. reflexivity.
    - (* OSwap *) startv v. unfold Swap. pose proof (VV _ _ Hv) as V. pose proof (contents_length m s V) as CL.
      destruct (nth_error (contents m s) i) as [x|] eqn:Hi.
      2:{ unfold in_place. rewrite swap_data_panic by auto. reflexivity. }
      destruct (nth_error (contents m s) j) as [y|] eqn:Hj.
      2:{ unfold in_place. rewrite swap_data_panic by auto. reflexivity. }
      assert (Li : i < length (contents m s)) by (apply nth_error_Some; congruence).
      assert (Lj : j < length (contents m s)) by (apply nth_error_Some; congruence).
      destruct (in_place_Ret m s (fun d => swap_data d i j) (seq_set (seq_set (contents m s) i y) j x) V) as (m2 & E2 & L2 & C2).
      + now apply swap_data_spec. + rewrite !seq_set_length; rewrite ?seq_set_length; auto.
      + rewrite E2. cbn [bind fst snd]. eexists. split; [reflexivity|].
        destruct (update_in_place m vs v s m2 _ Sep Hv L2 C2) as [U1 U2]. split; [exact U1|].
        rewrite U2, put_list_set by eauto. reflexivity.
    - (* OAppend *) startv v. destruct (nth_error vs w) as [t|] eqn:Hw.
      2:{ rewrite (view_none m vs w Hw). reflexivity. }
      rewrite (view_nth m vs w t Hw). cbn [of_option bind]. unfold Append.
      pose proof (append_spec zero extra m s (contents m t) (VV _ _ Hv)) as A.
      destruct (append zero extra m s (contents m t)) as [m1 s1]. destruct A as (L & C & _).
      pose proof (make_len_spec zero m1 0) as C0. destruct (make_len zero m1 0) as [m2 t2].
      destruct C0 as (Em & Ea & V2 & C2).
      destruct (update_separate m vs v s m1 s1 Sep Hv L) as [U1 U2].
      assert (Hw1 : exists t1, nth_error (list_set vs v s1) w = Some t1).
      { destruct (nth_error (list_set vs v s1) w) eqn:Q; eauto. apply nth_error_None in Q. rewrite list_set_length in Q.
        assert (w < length vs) by (apply nth_error_Some; congruence). lia. }
      destruct Hw1 as (t1 & Hw1).
      assert (L1 : local m1 t1 m2 t2) by (rewrite Em; apply fresh_local; [auto | now rewrite <- Em]).
      destruct (update_separate m1 (list_set vs v s1) w t1 m2 t2 U1 Hw1 L1) as [W1 W2].
      eexists. split; [reflexivity|]. split; [exact W1|].
      rewrite W2, U2, C, C2. rewrite !put_list_set; [reflexivity| |]; eauto.
      rewrite put_list_set by eauto. rewrite list_set_length. eauto.
    - (* OClear *) startv v. unfold Clear. pose proof (make_len_spec zero m 0) as C. destruct (make_len zero m 0) as [m' s'].
      destruct C as (Em & A & V & C). eexists. split; [reflexivity|].
      destruct (update_separate m vs v s m' s' Sep Hv) as [U1 U2].
      { rewrite Em. apply fresh_local; [auto | now rewrite <- Em]. }
      split; [exact U1|]. unfold assign. rewrite U2, C, put_list_set by eauto. reflexivity.
    - (* OLen *) startv v. unfold Len. rewrite contents_length by eauto. eauto.
    - (* OIsEmpty *) startv v. unfold IsEmpty, Len. pose proof (contents_length m s (VV _ _ Hv)) as CL.
      destruct (contents m s) as [|y r]; cbn [length] in CL; rewrite <- CL; eauto.
    - (* OContains *) startv v. unfold Contains. eauto.
    - (* OReverse *) startv v. unfold Reverse. pose proof (VV _ _ Hv) as V.
      destruct (in_place_Ret m s reverse_data (rev (contents m s)) V) as (m2 & E2 & L2 & C2).
      + apply reverse_data_spec. + rewrite rev_length. now apply contents_length.
      + rewrite E2. cbn [bind]. eexists. split; [reflexivity|].
        destruct (update_in_place m vs v s m2 _ Sep Hv L2 C2) as [U1 U2]. split; [exact U1|].
        rewrite U2, put_list_set by eauto. reflexivity.
    - (* ORetain *) startv v. pose proof (Retain_spec zero extra m s p (VV _ _ Hv)) as A.
      destruct (Retain zero extra m s p) as [m' s']. destruct A as (L & C). eexists. split; [reflexivity|].
      destruct (update_separate m vs v s m' s' Sep Hv L) as [U1 U2]. split; [exact U1|].
      unfold assign. rewrite U2, C, put_list_set by eauto. reflexivity.
    - (* ODedup *) startv v. unfold Dedup. pose proof (VV _ _ Hv) as V. pose proof (contents_length m s V) as CL.
      destruct (Nat.leb_spec (slen s) 1) as [E|E].
      + cbn [bind fst snd]. eexists. split; [reflexivity|]. unfold assign. rewrite (list_set_id _ vs v s Hv).
        split; [exact Sep|]. rewrite put_list_set by eauto.
        assert (D : dedup deq (contents m s) = contents m s).
        { destruct (contents m s) as [|y [|z r]]; cbn [length] in CL; try reflexivity. lia. }
        rewrite D. symmetry. apply list_set_id. now apply view_nth.
      + destruct (contents m s) as [|x l] eqn:Ec; [cbn in CL; lia|].
        destruct (dedup_data_spec deq x l) as (e & E1 & E2 & E3). rewrite E1. cbn [bind fst snd].
        cbn [length] in CL.
        assert (Le : length e = slen s) by lia.
        assert (Lk : length (dedup_after deq x l) + 1 <= slen s).
        { rewrite <- CL. clear. revert x. induction l; intros; cbn; [lia|]. destruct (deq x a); [specialize (IHl x)|specialize (IHl a)]; cbn; lia. }
        destruct (store_spec m s e V Le) as [L1 C1].
        destruct (update_separate m vs v s (store m s e) (reslice s (length (dedup_after deq x l) + 1)) Sep Hv) as [U1 U2].
        { eapply local_trans; [exact L1|]. apply reslice_local; [exact (proj1 L1) | auto]. }
        eexists. split; [reflexivity|]. split; [exact U1|]. unfold assign. rewrite U2, put_list_set by eauto.
        f_equal. rewrite reslice_store_contents by auto. rewrite Nat.add_1_r. exact E3.
    - (* OFill *) startv v. unfold Fill. pose proof (VV _ _ Hv) as V.
      destruct (in_place_Ret m s (fill_data x) (map (fun _ => x) (contents m s)) V) as (m2 & E2 & L2 & C2).
      + apply fill_data_spec. + rewrite map_length. now apply contents_length.
      + rewrite E2. cbn [bind]. eexists. split; [reflexivity|].
        destruct (update_in_place m vs v s m2 _ Sep Hv L2 C2) as [U1 U2]. split; [exact U1|].
        rewrite U2, put_list_set by eauto. reflexivity.
    - (* OEq *) startv v. destruct (nth_error vs w) as [t|] eqn:Hw.
      2:{ rewrite (view_none m vs w Hw). reflexivity. }
      rewrite (view_nth m vs w t Hw). cbn [of_option bind].
      rewrite Eq_spec by eauto. cbn [bind]. eauto.
  Qed.

  Lemma run_history : forall ops w, separate w ->
    match history zero eqb deq clone (view w) ops with
    | Some (s', l) => exists w', run zero extra eqb deq clone w ops = Ret (w', l) /\ separate w' /\ view w' = s'
    | None => run zero extra eqb deq clone w ops = Panic
    end.
  Proof.
    induction ops as [|o ops IH]; intros w S; cbn [history run].
    - eauto.
    - pose proof (exec_step w o S) as H. destruct (step zero eqb deq clone (view w) o) as [[s1 a]|].
      + destruct H as (w1 & E & S1 & V1). rewrite E. cbn [bind fst snd]. specialize (IH w1 S1). rewrite V1 in IH.
        destruct (history zero eqb deq clone s1 ops) as [[s2 l]|].
        * destruct IH as (w2 & E2 & S2 & V2). rewrite E2. cbn [bind fst snd]. eauto.
        * rewrite IH. reflexivity.
      + rewrite H. reflexivity.
  Qed.
End History.
