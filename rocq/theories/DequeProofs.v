(** DequeProofs.v -- the ring buffer of DequeModel shows a sequence. *)
From Verif Require Import Base BaseLemmas Effect VecModel VecSpec DequeModel.
From Verif Require DequeSpec.
Local Open Scope Z_scope.

Lemma u64_small : forall z, 0 <= z < 2 ^ 64 -> u64 z = z.
Proof. intros. unfold u64. now apply Z.mod_small. Qed.

Lemma bidx_nat : forall A (s : list A) i, bidx s (Z.of_nat i) = idx s i.
Proof.
  intros. unfold bidx. replace (0 <=? Z.of_nat i) with true by (symmetry; apply Z.leb_le; lia).
  cbn [andb]. destruct (Z.ltb_spec (Z.of_nat i) (Z.of_nat (length s))).
  - now rewrite Nat2Z.id.
  - unfold idx. replace (nth_error s i) with (@None A); [reflexivity|]. symmetry. apply nth_error_None. lia.
Qed.
Lemma bupd_nat : forall A (s : list A) i v, bupd s (Z.of_nat i) v = upd s i v.
Proof.
  intros. unfold bupd. replace (0 <=? Z.of_nat i) with true by (symmetry; apply Z.leb_le; lia).
  cbn [andb]. destruct (Z.ltb_spec (Z.of_nat i) (Z.of_nat (length s))).
  - now rewrite Nat2Z.id.
  - rewrite upd_Panic by lia. reflexivity.
Qed.

Lemma mbind_Ret : forall S A B (m : M S A) (k : A -> M S B) s a s', m s = Ret (a, s') -> mbind m k s = k a s'.
Proof. intros. unfold mbind. now rewrite H. Qed.
Lemma mbind_Panic : forall S A B (m : M S A) (k : A -> M S B) s, m s = Panic -> mbind m k s = Panic.
Proof. intros. unfold mbind. now rewrite H. Qed.
Lemma mbind_Diverge : forall S A B (m : M S A) (k : A -> M S B) s, m s = Diverge -> mbind m k s = Diverge.
Proof. intros. unfold mbind. now rewrite H. Qed.
Lemma mlift_Ret : forall S A (m : out A) a (s : S), m = Ret a -> mlift m s = Ret (a, s).
Proof. intros. unfold mlift. now rewrite H. Qed.

Ltac mstep F :=
  match type of F with
  | _ = Ret _ => erewrite (mbind_Ret _ _ _ _ _ _ _ _ F)
  | _ = Panic => erewrite (mbind_Panic _ _ _ _ _ _ F)
  | _ = Diverge => erewrite (mbind_Diverge _ _ _ _ _ _ F)
  end.

(** *** The ring *)
Definition ring (c h i : nat) : nat := (if h + i <? c then h + i else h + i - c)%nat.

Ltac ring_cases :=
  unfold ring in *;
  repeat match goal with
  | |- context [Nat.ltb ?a ?b] => destruct (Nat.ltb_spec a b)
  | H : context [Nat.ltb ?a ?b] |- _ => destruct (Nat.ltb_spec a b)
  end; try lia.

Lemma ring_lt : forall c h i, (h < c)%nat -> (i <= c)%nat -> (ring c h i < c)%nat.
Proof. intros. ring_cases. Qed.
Lemma ring_inj : forall c h i j, (h < c)%nat -> (i < c)%nat -> (j < c)%nat -> ring c h i = ring c h j -> i = j.
Proof. intros. ring_cases. Qed.

Section Deque.
  Context {T : Type}.
  Variable zero : T.
  Variable limit : Z.
  Hypothesis limit_ok : 7 <= limit < 2 ^ 63.

  Definition repr (b : list T) (h : nat) (xs : list T) : Prop :=
    (h < length b /\ length xs <= length b /\
     forall i, i < length xs -> nth_error b (ring (length b) h i) = nth_error xs i)%nat.
  Definition deq_of (b : list T) (h : nat) (xs : list T) : VecDeque T :=
    mkDeque b (Z.of_nat (length xs)) (Z.of_nat h).
  (** The deque shows xs and has capacity c. *)
  Definition rep (d : VecDeque T) (xs : list T) (c : nat) : Prop :=
    exists b h, d = deq_of b h xs /\ repr b h xs /\ length b = c /\ Z.of_nat c <= limit.

  Lemma phys : forall b h xs i, (h < length b)%nat -> (i <= length b)%nat -> Z.of_nat (length b) <= limit ->
    ToPhysicalIndex (deq_of b h xs) (Z.of_nat i) = Z.of_nat (ring (length b) h i).
  Proof.
    intros b h xs i Hh Hi Hl. unfold ToPhysicalIndex, WrapAdd, WrapIndex, deq_of, Capacity. cbn [head buffer].
    rewrite u64_small by lia. unfold ring.
    destruct (Z.leb_spec (Z.of_nat (length b)) (Z.of_nat h + Z.of_nat i));
      destruct (Nat.ltb_spec (h + i) (length b)); try lia.
    rewrite u64_small by lia. lia.
  Qed.

  (** *** Changes of the sequence *)
  Lemma repr_push_back : forall b h xs x, repr b h xs -> (length xs < length b)%nat ->
    repr (list_set b (ring (length b) h (length xs)) x) h (xs ++ [x]).
  Proof.
    intros b h xs x (Hh & Hl & Hn) L. unfold repr. rewrite list_set_length, app_length. cbn [length].
    split; [auto|]. split; [lia|]. intros i Hi.
    destruct (Nat.eq_dec i (length xs)) as [->|Ne].
    - rewrite nth_error_list_set_eq by (apply ring_lt; lia).
      rewrite nth_error_app2, Nat.sub_diag by lia. reflexivity.
    - rewrite nth_error_list_set_neq.
      + rewrite nth_error_app1 by lia. apply Hn. lia.
      + intros E. apply ring_inj in E; lia.
  Qed.

  Lemma repr_push_front : forall b h xs x, repr b h xs -> (length xs < length b)%nat ->
    let h' := (if h =? 0 then length b - 1 else h - 1)%nat in
    repr (list_set b h' x) h' (x :: xs).
  Proof.
    intros b h xs x (Hh & Hl & Hn) L h'. unfold repr. rewrite list_set_length. cbn [length].
    assert (H' : (h' < length b)%nat) by (unfold h'; destruct (Nat.eqb_spec h 0); lia).
    split; [auto|]. split; [lia|]. intros [|i] Hi.
    - replace (ring (length b) h' 0) with h' by ring_cases. now rewrite nth_error_list_set_eq.
    - replace (ring (length b) h' (S i)) with (ring (length b) h i)
        by (unfold h'; destruct (Nat.eqb_spec h 0); ring_cases).
      rewrite nth_error_list_set_neq.
      + cbn [nth_error]. apply Hn. lia.
      + unfold h'. destruct (Nat.eqb_spec h 0); ring_cases.
  Qed.

  Lemma repr_pop_front : forall b h x xs, repr b h (x :: xs) ->
    nth_error b h = Some x /\ repr b (ring (length b) h 1) xs.
  Proof.
    intros b h x xs (Hh & Hl & Hn). cbn [length] in *. split.
    - specialize (Hn 0%nat). replace (ring (length b) h 0) with h in Hn by ring_cases.
      rewrite Hn by lia. reflexivity.
    - split; [apply ring_lt; lia|]. split; [lia|]. intros i Hi.
      specialize (Hn (S i)). cbn [nth_error] in Hn. rewrite <- Hn by lia. f_equal. ring_cases.
  Qed.

  Lemma repr_pop_back : forall b h x xs, repr b h (xs ++ [x]) ->
    nth_error b (ring (length b) h (length xs)) = Some x /\ repr b h xs.
  Proof.
    intros b h x xs (Hh & Hl & Hn). rewrite app_length in *. cbn [length] in *. split.
    - rewrite Hn by lia. rewrite nth_error_app2, Nat.sub_diag by lia. reflexivity.
    - split; [auto|]. split; [lia|]. intros i Hi. rewrite Hn by lia. now rewrite nth_error_app1 by lia.
  Qed.

  Lemma repr_set : forall b h xs i x, repr b h xs -> (i < length xs)%nat ->
    repr (list_set b (ring (length b) h i) x) h (list_set xs i x).
  Proof.
    intros b h xs i x (Hh & Hl & Hn) Hi. unfold repr. rewrite !list_set_length.
    split; [auto|]. split; [auto|]. intros j Hj.
    destruct (Nat.eq_dec i j) as [->|Ne].
    - rewrite !nth_error_list_set_eq; auto. apply ring_lt; lia.
    - rewrite !nth_error_list_set_neq; auto. intros E. apply ring_inj in E; lia.
  Qed.

  (** *** Growing *)
  Lemma Copy_spec : forall (b : list T) src dst n, (dst + n <= length b)%nat -> (src <= length b)%nat ->
    Z.of_nat (length b) < 2 ^ 63 ->
    exists b', Copy b (Z.of_nat src) (Z.of_nat dst) (Z.of_nat n) = Ret b' /\ length b' = length b /\
      forall j, nth_error b' j =
        if ((dst <=? j) && (j <? dst + Nat.min n (length b - src)))%nat then nth_error b (src + (j - dst)) else nth_error b j.
  Proof.
    intros b src dst n H1 H2 H3. unfold Copy.
    rewrite u64_small by lia.
    replace (Z.of_nat dst <=? Z.of_nat dst + Z.of_nat n) with true by (symmetry; apply Z.leb_le; lia).
    replace (Z.of_nat dst + Z.of_nat n <=? Z.of_nat (length b)) with true by (symmetry; apply Z.leb_le; lia).
    replace (Z.of_nat src <=? Z.of_nat (length b)) with true by (symmetry; apply Z.leb_le; lia).
    cbn [andb]. rewrite !Nat2Z.id.
    replace (Z.to_nat (Z.of_nat dst + Z.of_nat n - Z.of_nat dst)) with n by lia.
    set (k := Nat.min n (length b - src)). assert (Hk : (k <= n /\ k <= length b - src)%nat) by (unfold k; lia).
    clearbody k. eexists. split; [reflexivity|].
    assert (L1 : length (firstn dst b) = dst) by (apply firstn_length_le; lia).
    assert (L2 : length (firstn k (skipn src b)) = k) by (apply firstn_length_le; rewrite skipn_length; lia).
    split.
    { rewrite !app_length, L1, L2, skipn_length. lia. }
    intros j. destruct (Nat.leb_spec dst j); cbn [andb].
    - rewrite nth_error_app2 by lia. rewrite L1. destruct (Nat.ltb_spec j (dst + k)).
      + rewrite nth_error_app1 by lia. rewrite nth_error_firstn.
        destruct (Nat.ltb_spec (j - dst) k); [|lia]. rewrite nth_error_skipn. reflexivity.
      + rewrite nth_error_app2 by lia. rewrite L2, nth_error_skipn. f_equal. lia.
    - rewrite nth_error_app1 by lia. rewrite nth_error_firstn.
      destruct (Nat.ltb_spec j dst); [reflexivity | lia].
  Qed.

  Lemma Handle_spec : forall b h xs pad, repr b h xs -> Z.of_nat (length b + length pad) <= limit ->
    exists b' h', HandleCapacityIncrease (deq_of (b ++ pad) h xs) (Z.of_nat (length b)) = Ret (deq_of b' h' xs)
      /\ repr b' h' xs /\ length b' = (length b + length pad)%nat.
  Proof.
    intros b h xs pad (Hh & Hl & Hn) HL. unfold HandleCapacityIncrease, Capacity.
    change (buffer (deq_of (b ++ pad) h xs)) with (b ++ pad).
    change (dlen (deq_of (b ++ pad) h xs)) with (Z.of_nat (length xs)).
    change (head (deq_of (b ++ pad) h xs)) with (Z.of_nat h). rewrite app_length.
    set (c := length b) in *. set (k := length pad) in *. set (n := length xs) in *.
    replace (Z.of_nat (c + k) <? Z.of_nat c) with false by (symmetry; apply Z.ltb_ge; lia).
    rewrite (u64_small (Z.of_nat c - Z.of_nat n)) by lia.
    destruct (Z.leb_spec (Z.of_nat h) (Z.of_nat c - Z.of_nat n)) as [A|A].
    - exists (b ++ pad), h. split; [reflexivity|]. unfold repr. rewrite app_length. fold c k n.
      split; [|reflexivity]. split; [lia|]. split; [lia|]. intros i Hi.
      replace (ring (c + k) h i) with (h + i)%nat by ring_cases.
      rewrite nth_error_app1 by (fold c; lia). rewrite <- Hn by auto. f_equal. ring_cases.
    - rewrite (u64_small (Z.of_nat c - Z.of_nat h)) by lia.
      rewrite (u64_small (Z.of_nat n - (Z.of_nat c - Z.of_nat h))) by lia.
      rewrite (u64_small (Z.of_nat (c + k) - Z.of_nat c)) by lia.
      rewrite (u64_small (Z.of_nat (c + k) - (Z.of_nat c - Z.of_nat h))) by lia.
      assert (Lb : length (b ++ pad) = (c + k)%nat) by (rewrite app_length; reflexivity).
      destruct (andb _ _) eqn:B.
      + apply andb_prop in B. destruct B as [B1 B2]. apply Z.ltb_lt in B1. apply Z.leb_le in B2.
        destruct (Copy_spec (b ++ pad) 0 c (n + h - c)) as (b' & E & L' & N'); try lia.
        replace (Z.of_nat n - (Z.of_nat c - Z.of_nat h)) with (Z.of_nat (n + h - c)) by lia.
        change 0 with (Z.of_nat 0). rewrite E. cbn [bind].
        exists b', h. split; [reflexivity|]. unfold repr. rewrite L', Lb. split; [|reflexivity].
        split; [lia|]. split; [fold n; lia|]. intros i Hi. fold n in Hi. rewrite N', Lb.
        rewrite <- Hn by auto.
        destruct (Nat.leb_spec c (ring (c + k) h i)); cbn [andb].
        * destruct (Nat.ltb_spec (ring (c + k) h i) (c + Nat.min (n + h - c) (c + k - 0))); [|ring_cases].
          rewrite nth_error_app1 by (fold c; ring_cases). f_equal. ring_cases.
        * rewrite nth_error_app1 by (fold c; ring_cases). f_equal. ring_cases.
      + apply andb_false_iff in B.
        assert (B' : (c - h <= n + h - c \/ k < n + h - c)%nat).
        { destruct B as [B|B]; [apply Z.ltb_ge in B | apply Z.leb_gt in B]; lia. }
        destruct (Copy_spec (b ++ pad) h (k + h) (c - h)) as (b' & E & L' & N'); try lia.
        replace (Z.of_nat (c + k) - (Z.of_nat c - Z.of_nat h)) with (Z.of_nat (k + h)) by lia.
        replace (Z.of_nat c - Z.of_nat h) with (Z.of_nat (c - h)) by lia. rewrite E. cbn [bind].
        exists b', (k + h)%nat. split; [reflexivity|]. unfold repr. rewrite L', Lb. split; [|reflexivity].
        split; [lia|]. split; [fold n; lia|]. intros i Hi. fold n in Hi. rewrite N', Lb.
        rewrite <- Hn by auto.
        destruct (Nat.leb_spec (k + h) (ring (c + k) (k + h) i)); cbn [andb].
        * destruct (Nat.ltb_spec (ring (c + k) (k + h) i) (k + h + Nat.min (c - h) (c + k - h))); [|ring_cases].
          rewrite nth_error_app1 by (fold c; ring_cases). f_equal. ring_cases.
        * rewrite nth_error_app1 by (fold c; ring_cases). f_equal. ring_cases.
  Qed.

  Lemma make_Ret : forall n, Z.of_nat n <= limit -> make zero limit (Z.of_nat n) = Ret (repeat zero n).
  Proof. intros. unfold make. rewrite (proj2 (Z.leb_le _ _)) by lia. now rewrite Nat2Z.id. Qed.
  Lemma make_Panic : forall n, limit < n -> make zero limit n = Panic.
  Proof. intros. unfold make. now rewrite (proj2 (Z.leb_gt _ _)) by lia. Qed.

  Lemma copy_into_repeat : forall (b : list T) k, copy_into (repeat zero (length b + k)) b = b ++ repeat zero k.
  Proof.
    intros. unfold copy_into. rewrite repeat_length, Nat.min_r by lia.
    rewrite firstn_all, repeat_app. f_equal. rewrite skipn_app, repeat_length, Nat.sub_diag, skipn_all2.
    - reflexivity.
    - rewrite repeat_length. lia.
  Qed.

  Lemma Reserve_spec : forall d xs c n, rep d xs c -> Z.of_nat c + Z.of_nat n <= limit ->
    exists d', Reserve zero limit d (Z.of_nat n) = Ret d' /\ rep d' xs (c + n).
  Proof.
    intros d xs c n (b & h & -> & R & Lb & Hl) H. unfold Reserve, Capacity.
    change (buffer (deq_of b h xs)) with b. rewrite u64_small by lia. rewrite Lb.
    destruct (Z.ltb_spec (Z.of_nat c) (Z.of_nat c + Z.of_nat n)).
    - replace (Z.of_nat c + Z.of_nat n) with (Z.of_nat (c + n)) by lia.
      rewrite make_Ret by lia. cbn [bind]. rewrite <- Lb, copy_into_repeat.
      change (mkDeque (b ++ repeat zero n) (dlen (deq_of b h xs)) (head (deq_of b h xs)))
        with (deq_of (b ++ repeat zero n) h xs).
      destruct (Handle_spec b h xs (repeat zero n)) as (b' & h' & E & R' & L'); auto.
      { rewrite repeat_length. lia. }
      rewrite E. eexists. split; [reflexivity|]. rewrite repeat_length in L'.
      exists b', h'. split; [reflexivity|]. split; [auto|]. split; [lia|]. lia.
    - exists (deq_of b h xs). split; [reflexivity|]. replace n with 0%nat by lia. rewrite Nat.add_0_r.
      exists b, h. auto.
  Qed.

  Lemma Grow_spec : forall d xs, rep d xs (length xs) -> (0 < length xs)%nat -> 2 * Z.of_nat (length xs) <= limit ->
    exists d', Grow zero limit d = Ret d' /\ rep d' xs (length xs + length xs).
  Proof.
    intros d xs (b & h & -> & R & Lb & Hl) H0 H. unfold Grow, IsFull, Capacity.
    change (buffer (deq_of b h xs)) with b. change (dlen (deq_of b h xs)) with (Z.of_nat (length xs)).
    rewrite Lb, Z.eqb_refl. cbn [negb]. rewrite u64_small by lia.
    replace (Z.of_nat (length xs) * 2) with (Z.of_nat (length xs + length xs)) by lia.
    rewrite make_Ret by lia. cbn [bind]. rewrite <- Lb, copy_into_repeat.
    replace (mkDeque (b ++ repeat zero (length b)) (Z.of_nat (length b)) (head (deq_of b h xs)))
      with (deq_of (b ++ repeat zero (length b)) h xs) by (unfold deq_of; cbn [head]; now rewrite Lb).
    destruct (Handle_spec b h xs (repeat zero (length b))) as (b' & h' & E & R' & L'); auto.
    { rewrite repeat_length. lia. }
    rewrite E. cbn [bind]. rewrite repeat_length in L'.
    change (buffer (deq_of b' h' xs)) with b'. change (dlen (deq_of b' h' xs)) with (Z.of_nat (length xs)).
    destruct (Z.eqb_spec (Z.of_nat (length xs)) (Z.of_nat (length b'))); [lia|].
    eexists. split; [reflexivity|]. exists b', h'. split; [reflexivity|]. split; [auto|]. lia.
  Qed.

  (** Capacity after making room for one more. *)
  Definition roomier (n c : nat) : nat := if Nat.eqb n c then (c + c)%nat else c.

  Lemma rep_pos : forall d xs c, rep d xs c -> (0 < c /\ length xs <= c)%nat /\ Z.of_nat c <= limit.
  Proof. intros d xs c (b & h & -> & (R1 & R2 & _) & Lb & Hl). lia. Qed.

  Lemma make_room : forall d xs c, rep d xs c -> Z.of_nat (roomier (length xs) c) <= limit ->
    exists d', (if IsFull d then Grow zero limit d else Ret d) = Ret d' /\ rep d' xs (roomier (length xs) c)
      /\ (length xs < roomier (length xs) c)%nat.
  Proof.
    intros d xs c R H. pose proof (rep_pos _ _ _ R) as P. unfold roomier in *.
    assert (F : IsFull d = (length xs =? c)%nat).
    { destruct R as (b & h & -> & _ & Lb & _). unfold IsFull, Capacity. cbn [deq_of dlen buffer].
      rewrite Lb. destruct (Nat.eqb_spec (length xs) c); [apply Z.eqb_eq | apply Z.eqb_neq]; lia. }
    rewrite F. destruct (Nat.eqb_spec (length xs) c) as [E|E].
    - subst c. destruct (Grow_spec d xs R) as (d' & E' & R'); [lia|lia|]. exists d'. split; [exact E'|]. split; [exact R'|]. lia.
    - exists d. split; [reflexivity|]. split; [auto|]. lia.
  Qed.

  Lemma PushBack_spec : forall d xs c x, rep d xs c -> Z.of_nat (roomier (length xs) c) <= limit ->
    exists d', PushBack zero limit d x = Ret d' /\ rep d' (xs ++ [x]) (roomier (length xs) c).
  Proof.
    intros d xs c x R H. unfold PushBack. destruct (make_room _ _ _ R H) as (d1 & E & R1 & L). rewrite E. cbn [bind].
    destruct R1 as (b & h & -> & (R1 & R2 & R3) & Lb & Hl).
    change (dlen (deq_of b h xs)) with (Z.of_nat (length xs)). rewrite phys by lia.
    change (buffer (deq_of b h xs)) with b. rewrite bupd_nat, upd_Ret by (apply ring_lt; lia). cbn [bind].
    eexists. split; [reflexivity|]. exists (list_set b (ring (length b) h (length xs)) x), h.
    split. { unfold deq_of. cbn [head]. f_equal. rewrite app_length. cbn [length]. rewrite u64_small by lia. lia. }
    split. { apply repr_push_back; [repeat split; auto | lia]. }
    rewrite list_set_length. auto.
  Qed.

  Lemma PushFront_spec : forall d xs c x, rep d xs c -> Z.of_nat (roomier (length xs) c) <= limit ->
    exists d', PushFront zero limit d x = Ret d' /\ rep d' (x :: xs) (roomier (length xs) c).
  Proof.
    intros d xs c x R H. unfold PushFront. destruct (make_room _ _ _ R H) as (d1 & E & R1 & L). rewrite E. cbn [bind].
    destruct R1 as (b & h & -> & (R1 & R2 & R3) & Lb & Hl).
    set (h' := (if h =? 0 then length b - 1 else h - 1)%nat).
    assert (W : WrapSub (deq_of b h xs) (head (deq_of b h xs)) 1 = Z.of_nat h').
    { unfold WrapSub, WrapIndex, Capacity. cbn [deq_of head buffer]. unfold h'.
      destruct (Nat.eqb_spec h 0) as [->|Ne].
      - change (u64 (Z.of_nat 0 - 1)) with (2 ^ 64 - 1).
        replace (u64 (2 ^ 64 - 1 + Z.of_nat (length b))) with (Z.of_nat (length b) - 1).
        + destruct (Z.leb_spec (Z.of_nat (length b)) (Z.of_nat (length b) - 1)); lia.
        + unfold u64. replace (2 ^ 64 - 1 + Z.of_nat (length b)) with (Z.of_nat (length b) - 1 + 1 * 2 ^ 64) by lia.
          rewrite Z.mod_add by lia. rewrite Z.mod_small; lia.
      - rewrite (u64_small (Z.of_nat h - 1)) by lia. rewrite (u64_small (Z.of_nat h - 1 + Z.of_nat (length b))) by lia.
        destruct (Z.leb_spec (Z.of_nat (length b)) (Z.of_nat h - 1 + Z.of_nat (length b))); [|lia].
        rewrite u64_small by lia. lia. }
    rewrite W. change (buffer (deq_of b h xs)) with b.
    assert (H' : (h' < length b)%nat) by (unfold h'; destruct (Nat.eqb_spec h 0); lia).
    rewrite bupd_nat, upd_Ret by auto. cbn [bind].
    eexists. split; [reflexivity|]. exists (list_set b h' x), h'.
    split. { unfold deq_of. cbn [dlen length]. f_equal. rewrite u64_small by lia. lia. }
    split. { apply repr_push_front; [repeat split; auto | lia]. }
    rewrite list_set_length. auto.
  Qed.

  Lemma rep_len : forall d xs c, rep d xs c -> dlen d = Z.of_nat (length xs).
  Proof. intros d xs c (b & h & -> & _). reflexivity. Qed.
  Lemma rep_cap : forall d xs c, rep d xs c -> Capacity d = Z.of_nat c.
  Proof. intros d xs c (b & h & -> & _ & Lb & _). unfold Capacity. cbn. now rewrite Lb. Qed.

  Lemma PopFront_nil : forall d c, rep d [] c -> PopFront d = Ret (d, None).
  Proof. intros d c R. unfold PopFront, IsEmpty. now rewrite (rep_len _ _ _ R). Qed.
  Lemma PopFront_cons : forall d x xs c, rep d (x :: xs) c ->
    exists d', PopFront d = Ret (d', Some x) /\ rep d' xs c.
  Proof.
    intros d x xs c (b & h & -> & R & Lb & Hl). unfold PopFront, IsEmpty.
    change (dlen (deq_of b h (x :: xs))) with (Z.of_nat (S (length xs))).
    destruct (Z.eqb_spec (Z.of_nat (S (length xs))) 0); [lia|].
    pose proof R as (Hh & HL & _). cbn [length] in HL.
    destruct (repr_pop_front _ _ _ _ R) as (N & R').
    change 1 with (Z.of_nat 1) at 2. rewrite phys by lia.
    change (buffer (deq_of b h (x :: xs))) with b. change (head (deq_of b h (x :: xs))) with (Z.of_nat h).
    rewrite bidx_nat. unfold idx. rewrite N. cbn [of_option bind]. eexists. split; [reflexivity|].
    exists b, (ring (length b) h 1). split; [|auto].
    unfold deq_of. f_equal. rewrite u64_small by lia. lia.
  Qed.
  Lemma PopBack_nil : forall d c, rep d [] c -> PopBack d = Ret (d, None).
  Proof. intros d c R. unfold PopBack, IsEmpty. now rewrite (rep_len _ _ _ R). Qed.
  Lemma PopBack_snoc : forall d x xs c, rep d (xs ++ [x]) c ->
    exists d', PopBack d = Ret (d', Some x) /\ rep d' xs c.
  Proof.
    intros d x xs c (b & h & -> & R & Lb & Hl). unfold PopBack, IsEmpty.
    pose proof R as (Hh & HL & _). rewrite app_length in HL. cbn [length] in HL.
    assert (DL : dlen (deq_of b h (xs ++ [x])) = Z.of_nat (length xs) + 1).
    { cbn [deq_of dlen]. rewrite app_length. cbn [length]. lia. }
    rewrite DL. destruct (Z.eqb_spec (Z.of_nat (length xs) + 1) 0); [lia|].
    destruct (repr_pop_back _ _ _ _ R) as (N & R').
    rewrite u64_small by lia. replace (Z.of_nat (length xs) + 1 - 1) with (Z.of_nat (length xs)) by lia.
    change (buffer (deq_of b h (xs ++ [x]))) with b. change (head (deq_of b h (xs ++ [x]))) with (Z.of_nat h).
    change (mkDeque b (Z.of_nat (length xs)) (Z.of_nat h)) with (deq_of b h xs).
    change (dlen (deq_of b h xs)) with (Z.of_nat (length xs)). change (buffer (deq_of b h xs)) with b.
    rewrite phys by lia. rewrite bidx_nat. unfold idx. rewrite N. cbn [of_option bind].
    eexists. split; [reflexivity|]. exists b, h. auto.
  Qed.

  Lemma GetUnchecked_spec : forall d xs c i x, rep d xs c -> nth_error xs i = Some x ->
    GetUnchecked d (Z.of_nat i) = Ret x.
  Proof.
    intros d xs c i x (b & h & -> & (R1 & R2 & R3) & Lb & Hl) N.
    assert (i < length xs)%nat by (apply nth_error_Some; congruence).
    unfold GetUnchecked. rewrite phys by lia. change (buffer (deq_of b h xs)) with b.
    rewrite bidx_nat. unfold idx. rewrite R3 by auto. now rewrite N.
  Qed.
  Lemma Get_spec : forall d xs c i, rep d xs c -> Get d (Z.of_nat i) = Ret (nth_error xs i).
  Proof.
    intros d xs c i R. pose proof (rep_len _ _ _ R) as L. unfold Get, Len. rewrite L.
    destruct (Z.leb_spec (Z.of_nat (length xs)) (Z.of_nat i)).
    - f_equal. symmetry. apply nth_error_None. lia.
    - destruct (nth_error xs i) as [x|] eqn:N; [|apply nth_error_None in N; lia].
      pose proof (GetUnchecked_spec _ _ _ _ _ R N) as G. unfold GetUnchecked in G. rewrite G. reflexivity.
  Qed.
  Lemma get_unwrap_spec : forall d xs c i x, rep d xs c -> nth_error xs i = Some x ->
    get_unwrap d (Z.of_nat i) = Ret x.
  Proof. intros. unfold get_unwrap. erewrite Get_spec by eauto. cbn [bind]. now rewrite H0. Qed.

  Lemma SetUnchecked_spec : forall d xs c i x, rep d xs c -> (i < length xs)%nat ->
    exists d', SetUnchecked d (Z.of_nat i) x = Ret d' /\ rep d' (list_set xs i x) c.
  Proof.
    intros d xs c i x (b & h & -> & R & Lb & Hl) Hi. pose proof R as (R1 & R2 & R3).
    unfold SetUnchecked. rewrite phys by lia. change (buffer (deq_of b h xs)) with b.
    rewrite bupd_nat, upd_Ret by (apply ring_lt; lia). cbn [bind]. eexists. split; [reflexivity|].
    exists (list_set b (ring (length b) h i) x), h. split.
    { unfold deq_of. cbn [dlen head]. now rewrite list_set_length. }
    split; [now apply repr_set|]. rewrite list_set_length. auto.
  Qed.
  Lemma Set_in : forall d xs c i x, rep d xs c -> (i < length xs)%nat ->
    exists d', Set_ d (Z.of_nat i) x = Ret (d', None) /\ rep d' (list_set xs i x) c.
  Proof.
    intros d xs c i x R Hi. destruct (SetUnchecked_spec _ _ _ _ x R Hi) as (d' & E & R').
    unfold Set_, Len. rewrite (rep_len _ _ _ R). destruct (Z.leb_spec (Z.of_nat (length xs)) (Z.of_nat i)); [lia|].
    unfold SetUnchecked in E. destruct (bupd _ _ _); try discriminate. cbn [bind] in *. injection E as <-. rewrite <- (rep_len _ _ _ R). eauto.
  Qed.
  Lemma Set_out : forall d xs c i x, rep d xs c -> Z.of_nat (length xs) <= i -> Set_ d i x = Ret (d, Some x).
  Proof.
    intros d xs c i x R Hi. unfold Set_, Len. rewrite (rep_len _ _ _ R).
    now rewrite (proj2 (Z.leb_le _ _)) by lia.
  Qed.

  Lemma Swap_spec : forall d xs c i j x y, rep d xs c -> nth_error xs i = Some x -> nth_error xs j = Some y ->
    exists d', Swap d (Z.of_nat i) (Z.of_nat j) = Ret d' /\ rep d' (list_set (list_set xs i y) j x) c.
  Proof.
    intros d xs c i j x y R Ni Nj.
    assert (Hi : (i < length xs)%nat) by (apply nth_error_Some; congruence).
    assert (Hj : (j < length xs)%nat) by (apply nth_error_Some; congruence).
    unfold Swap. destruct (Z.eqb_spec (Z.of_nat i) (Z.of_nat j)) as [E|E].
    - apply Nat2Z.inj in E. subst j. rewrite Ni in Nj. injection Nj as <-.
      exists d. split; [reflexivity|]. now rewrite (list_set_same xs i x Ni), (list_set_same xs i x Ni).
    - destruct R as (b & h & -> & R & Lb & Hl). pose proof R as (R1 & R2 & R3).
      rewrite !phys by lia. change (buffer (deq_of b h xs)) with b.
      rewrite !bidx_nat. unfold idx. rewrite !R3, Ni, Nj by auto. cbn [of_option bind].
      rewrite bupd_nat, upd_Ret by (apply ring_lt; lia). cbn [bind].
      rewrite bupd_nat, upd_Ret by (rewrite list_set_length; apply ring_lt; lia). cbn [bind].
      eexists. split; [reflexivity|].
      pose proof (repr_set _ _ _ _ y R Hi) as R'. pose proof (repr_set _ _ _ j x R') as R''.
      rewrite !list_set_length in R''. specialize (R'' Hj).
      eexists _, h. split; [|split; [exact R''|]].
      + unfold deq_of. cbn [dlen head]. now rewrite !list_set_length.
      + rewrite !list_set_length. auto.
  Qed.

  Lemma rep_empty : forall c, (0 < c)%nat -> Z.of_nat c <= limit -> rep (mkDeque (repeat zero c) 0 0) [] c.
  Proof.
    intros. exists (repeat zero c), 0%nat. split; [reflexivity|]. unfold repr. rewrite repeat_length. cbn [length].
    repeat split; try lia.
  Qed.
  Lemma Clear_spec : forall d, exists d', Clear zero limit d = Ret d' /\ rep d' [] 7.
  Proof.
    intros. unfold Clear, initial_capacity. change 7 with (Z.of_nat 7). rewrite make_Ret by lia.
    eexists. split; [reflexivity|]. apply rep_empty; lia.
  Qed.
  Lemma WithCapacity_spec : forall n, Z.of_nat (Nat.max n 1) <= limit ->
    exists d, VecDequeWithCapacity zero limit (Z.of_nat n) = Ret d /\ rep d [] (Nat.max n 1).
  Proof.
    intros n H. unfold VecDequeWithCapacity, minimum_capacity.
    replace (if Z.of_nat n <? 1 then 1 else Z.of_nat n) with (Z.of_nat (Nat.max n 1))
      by (destruct (Z.ltb_spec (Z.of_nat n) 1); lia).
    rewrite make_Ret by lia. eexists. split; [reflexivity|]. apply rep_empty; lia.
  Qed.
  Lemma WithLen_spec : forall n, Z.of_nat (Nat.max n 1) <= limit ->
    exists d, VecDequeWithLen zero limit (Z.of_nat n) = Ret d /\ rep d (repeat zero n) (Nat.max n 1).
  Proof.
    intros n H. unfold VecDequeWithLen, VecDequeWithCapacity, minimum_capacity.
    replace (if Z.of_nat n <? 1 then 1 else Z.of_nat n) with (Z.of_nat (Nat.max n 1))
      by (destruct (Z.ltb_spec (Z.of_nat n) 1); lia).
    rewrite make_Ret by lia. cbn [bind buffer head]. eexists. split; [reflexivity|].
    exists (repeat zero (Nat.max n 1)), 0%nat. unfold deq_of. rewrite repeat_length.
    split; [reflexivity|]. rewrite repeat_length. split; [|lia]. unfold repr. rewrite !repeat_length.
    split; [lia|]. split; [lia|]. intros i Hi. rewrite !nth_error_repeat; auto. apply ring_lt; lia.
  Qed.

  (** *** Loops over all elements *)
  Lemma indices_0 : forall n, indices 0 (Z.of_nat n) = map Z.of_nat (seq 0 n).
  Proof.
    intros. unfold indices. rewrite Z.sub_0_r, Nat2Z.id. apply map_ext. intros. lia.
  Qed.
  Lemma indices_1 : forall n, indices 1 (Z.of_nat (S n)) = map Z.of_nat (seq 1 n).
  Proof.
    intros. unfold indices. replace (Z.to_nat (Z.of_nat (S n) - 1)) with n by lia.
    rewrite <- seq_shift, map_map. apply map_ext. intros. lia.
  Qed.

  (** A loop that reads element i in round i. *)
  Lemma oloop_get : forall S (f : S -> T -> out S) (g : VecDeque T -> Z -> out T) d xs,
    (forall i x, nth_error xs i = Some x -> g d (Z.of_nat i) = Ret x) -> forall s,
    oloop (fun s i => x <- g d i ;; f s x) (map Z.of_nat (seq 0 (length xs))) s = oloop f xs s.
  Proof.
    intros S f g d xs Hg.
    assert (H : forall ys zs s, xs = zs ++ ys ->
      oloop (fun s i => x <- g d i ;; f s x) (map Z.of_nat (seq (length zs) (length ys))) s = oloop f ys s).
    { induction ys as [|y ys IH]; intros zs s E; cbn [length seq map oloop]; [reflexivity|].
      rewrite (Hg _ y) by (rewrite E, nth_error_app2, Nat.sub_diag by lia; reflexivity).
      cbn [bind]. destruct (f s y); cbn [bind]; auto.
      specialize (IH (zs ++ [y])). rewrite app_length in IH. cbn [length] in IH.
      rewrite Nat.add_1_r in IH. apply IH. rewrite E, <- app_assoc. reflexivity. }
    intros s. now apply (H xs []).
  Qed.
  Lemma mloop_get : forall S A (f : A -> T -> M S A) (g : VecDeque T -> Z -> out T) d xs,
    (forall i x, nth_error xs i = Some x -> g d (Z.of_nat i) = Ret x) -> forall a s,
    mloop (fun a i => x <~ mlift (g d i) ;; f a x) (map Z.of_nat (seq 0 (length xs))) a s = mloop f xs a s.
  Proof.
    intros S A f g d xs Hg.
    assert (H : forall ys zs a s, xs = zs ++ ys ->
      mloop (fun a i => x <~ mlift (g d i) ;; f a x) (map Z.of_nat (seq (length zs) (length ys))) a s = mloop f ys a s).
    { induction ys as [|y ys IH]; intros zs a s E; cbn [length seq map mloop]; [reflexivity|].
      unfold mbind at 1 2, mlift. rewrite (Hg _ y) by (rewrite E, nth_error_app2, Nat.sub_diag by lia; reflexivity).
      cbn [bind]. unfold mbind. destruct (f a y s) as [[a' s']| |]; auto.
      specialize (IH (zs ++ [y])). rewrite app_length in IH. cbn [length] in IH.
      rewrite Nat.add_1_r in IH. apply IH. rewrite E, <- app_assoc. reflexivity. }
    intros a s. now apply (H xs []).
  Qed.

  (** Pushing a list. *)
  Fixpoint grown (n c : nat) (k : nat) : nat :=
    match k with O => c | S k' => grown (S n) (roomier n c) k' end.
  Lemma push_all : forall ys d xs c, rep d xs c -> 
    (forall k, (k <= length ys)%nat -> Z.of_nat (grown (length xs) c k) <= limit) ->
    exists d', oloop (fun d x => PushBack zero limit d x) ys d = Ret d' /\ rep d' (xs ++ ys) (grown (length xs) c (length ys)).
  Proof.
    induction ys as [|y ys IH]; intros d xs c R H; cbn [oloop].
    - exists d. split; [reflexivity|]. rewrite app_nil_r. exact R.
    - destruct (PushBack_spec d xs c y R) as (d1 & E & R1).
      { apply (H 1%nat). cbn [length]. lia. }
      rewrite E. cbn [bind]. destruct (IH d1 _ _ R1) as (d2 & E2 & R2).
      + intros k Hk. rewrite app_length. cbn [length]. rewrite Nat.add_1_r. apply (H (S k)). cbn [length]. lia.
      + exists d2. split; [exact E2|]. rewrite <- app_assoc in R2. cbn [app length grown] in *.
        rewrite app_length in R2. cbn [length] in R2. rewrite Nat.add_1_r in R2. exact R2.
  Qed.
  Lemma grown_enough : forall k n c, (n + k <= c)%nat -> grown n c k = c.
  Proof.
    induction k; intros n c H; cbn [grown]; [reflexivity|]. unfold roomier.
    destruct (Nat.eqb_spec n c); [lia|]. apply IHk. lia.
  Qed.

  Lemma Append_spec : forall d xs c e ys c', rep d xs c -> rep e ys c' -> Z.of_nat (c + length ys) <= limit ->
    exists d' e', Append zero limit d e = Ret (d', e') /\ rep d' (xs ++ ys) (c + length ys) /\ rep e' [] 7.
  Proof.
    intros d xs c e ys c' R R' H. unfold Append, Len. rewrite (rep_len _ _ _ R').
    destruct (Reserve_spec d xs c (length ys) R) as (d1 & E1 & R1); [lia|]. rewrite E1. cbn [bind].
    rewrite indices_0.
    rewrite (oloop_get _ (fun d x => PushBack zero limit d x) (GetUnchecked (T := T)) e ys).
    2:{ intros. eapply GetUnchecked_spec; eauto. }
    pose proof (rep_pos _ _ _ R) as P. pose proof (rep_pos _ _ _ R1) as P1.
    destruct (push_all ys d1 xs (c + length ys) R1) as (d2 & E2 & R2).
    { intros. rewrite grown_enough by lia. lia. }
    rewrite E2. cbn [bind]. rewrite grown_enough in R2 by lia.
    destruct (Clear_spec e) as (e' & E3 & R3). rewrite E3. cbn [bind]. eauto.
  Qed.

  Lemma Clone_spec : forall d xs c, rep d xs c -> exists d', Clone zero limit d = Ret d' /\ rep d' xs c.
  Proof.
    intros d xs c R. pose proof (rep_pos _ _ _ R) as P. unfold Clone, Len. rewrite (rep_len _ _ _ R), (rep_cap _ _ _ R).
    destruct (WithCapacity_spec c) as (d1 & E1 & R1); [lia|]. rewrite E1. cbn [bind].
    replace (Nat.max c 1) with c in R1 by lia. rewrite indices_0.
    rewrite (oloop_get _ (fun d x => PushBack zero limit d x) (get_unwrap (T := T)) d xs).
    2:{ intros. eapply get_unwrap_spec; eauto. }
    destruct (push_all xs d1 [] c R1) as (d2 & E2 & R2).
    { intros. rewrite grown_enough by (cbn [length]; lia). lia. }
    rewrite grown_enough in R2 by (cbn [length]; lia). eauto.
  Qed.

  (** Cutting the length. *)
  Lemma rep_shrink : forall d xs c ys, rep d (xs ++ ys) c ->
    rep (mkDeque (buffer d) (Z.of_nat (length xs)) (head d)) xs c.
  Proof.
    intros d xs c ys (b & h & -> & (R1 & R2 & R3) & Lb & Hl). exists b, h. split; [reflexivity|].
    split; [|auto]. rewrite app_length in *. split; [auto|]. split; [lia|].
    intros i Hi. rewrite R3 by lia. now rewrite nth_error_app1.
  Qed.

  Definition retain_body {S} (f : T -> M S bool) (st : VecDeque T * Z) (i : Z) : M S (VecDeque T * Z) :=
    let '(d, newLen) := st in
    value <~ mlift (GetUnchecked d i) ;;
    keep <~ f value ;;
    if (keep : bool) then d <~ mlift (SetUnchecked d newLen value) ;; mret (d, u64 (newLen + 1)) else mret (d, newLen).

  Lemma list_set_middle : forall (kept mid r : list T) x, exists mid',
    length mid' = length mid /\ list_set (kept ++ mid ++ x :: r) (length kept) x = (kept ++ [x]) ++ mid' ++ r.
  Proof.
    intros kept mid r x. rewrite list_set_app2, Nat.sub_diag by lia. destruct mid as [|m mid].
    - exists []. split; [reflexivity|]. cbn. now rewrite <- app_assoc.
    - exists (mid ++ [x]). split; [rewrite app_length; cbn [length]; lia|].
      cbn. now rewrite <- !app_assoc.
  Qed.

  Lemma retain_loop : forall S (f : T -> M S bool) c rest kept mid d s, rep d (kept ++ mid ++ rest) c ->
    let loop := mloop (retain_body f) (map Z.of_nat (seq (length kept + length mid) (length rest))) (d, Z.of_nat (length kept)) s in
    match DequeSpec.each_filter f rest s with
    | Ret (k, s') => exists d' tail, loop = Ret ((d', Z.of_nat (length kept + length k)), s') /\ rep d' (kept ++ k ++ tail) c
                     /\ head d' = head d
    | Panic => loop = Panic
    | Diverge => loop = Diverge
    end.
  Proof.
    intros S f c. induction rest as [|x rest IH]; intros kept mid d s R loop.
    - cbn. exists d, mid. cbn in loop. unfold loop. rewrite Nat.add_0_r. rewrite app_nil_r in R. auto.
    - cbn [DequeSpec.each_filter]. cbn [length seq map mloop] in loop. unfold loop; clear loop.
      pose proof (rep_pos _ _ _ R) as P. rewrite !app_length in P. cbn [length] in P.
      assert (G : GetUnchecked d (Z.of_nat (length kept + length mid)) = Ret x).
      { eapply GetUnchecked_spec; eauto. rewrite app_assoc, nth_error_app2; rewrite app_length; [|lia].
        now rewrite Nat.sub_diag. }
      assert (B : retain_body f (d, Z.of_nat (length kept)) (Z.of_nat (length kept + length mid)) s =
        mbind (f x) (fun keep : bool => if keep then d <~ mlift (SetUnchecked d (Z.of_nat (length kept)) x) ;;
          mret (d, u64 (Z.of_nat (length kept) + 1)) else mret (d, Z.of_nat (length kept))) s).
      { unfold retain_body. erewrite mbind_Ret by (apply mlift_Ret; exact G). reflexivity. }
      destruct (f x s) as [[b s1]| |] eqn:F.
      2:{ rewrite (mbind_Panic _ _ _ _ _ _ F) in B. mstep F. mstep B. reflexivity. }
      2:{ rewrite (mbind_Diverge _ _ _ _ _ _ F) in B. mstep F. mstep B. reflexivity. }
      rewrite (mbind_Ret _ _ _ _ _ _ _ _ F) in B. mstep F. destruct b.
      + destruct (list_set_middle kept mid rest x) as (mid' & L' & Eq').
        destruct (SetUnchecked_spec d _ c (length kept) x R) as (d1 & E1 & R1).
        { rewrite !app_length. cbn [length]. lia. }
        erewrite mbind_Ret in B by (apply mlift_Ret; exact E1).
        rewrite (mbind_Ret _ _ _ _ _ _ _ _ B). clear B.
        rewrite Eq' in R1. specialize (IH (kept ++ [x]) mid' d1 s1 R1). cbv zeta in IH.
        rewrite app_length in IH. cbn [length] in IH.
        replace (length kept + 1 + length mid')%nat with (Datatypes.S (length kept + length mid)) in IH by lia.
        rewrite u64_small by lia.
        replace (Z.of_nat (length kept) + 1) with (Z.of_nat (length kept + 1)) by lia.
        destruct (DequeSpec.each_filter f rest s1) as [[k s2]| |] eqn:Ef.
        2:{ now rewrite (mbind_Panic _ _ _ _ _ _ Ef). }
        2:{ now rewrite (mbind_Diverge _ _ _ _ _ _ Ef). }
        rewrite (mbind_Ret _ _ _ _ _ _ _ _ Ef). unfold mret at 1.
        destruct IH as (d2 & tail & E2 & R2 & H2). exists d2, tail. split; [|split].
        * rewrite E2. cbn [length]. do 3 f_equal. lia.
        * rewrite <- app_assoc in R2. exact R2.
        * rewrite H2. unfold SetUnchecked in E1. destruct (bupd _ _ _); try discriminate. cbn [bind] in E1. now injection E1 as <-.
      + rewrite (mbind_Ret _ _ _ _ _ _ _ _ B). clear B.
        specialize (IH kept (mid ++ [x]) d s1). rewrite <- app_assoc in IH. specialize (IH R). cbv zeta in IH.
        rewrite app_length in IH. cbn [length] in IH.
        replace (length kept + (length mid + 1))%nat with (Datatypes.S (length kept + length mid)) in IH by lia.
        destruct (DequeSpec.each_filter f rest s1) as [[k s2]| |] eqn:Ef.
        2:{ now rewrite (mbind_Panic _ _ _ _ _ _ Ef). }
        2:{ now rewrite (mbind_Diverge _ _ _ _ _ _ Ef). }
        rewrite (mbind_Ret _ _ _ _ _ _ _ _ Ef). unfold mret at 1. exact IH.
  Qed.

  Lemma Retain_spec : forall S (f : T -> M S bool) d xs c s, rep d xs c ->
    match DequeSpec.each_filter f xs s with
    | Ret (k, s') => exists d', Retain d f s = Ret (d', s') /\ rep d' k c /\ head d' = head d
    | Panic => Retain d f s = Panic
    | Diverge => Retain d f s = Diverge
    end.
  Proof.
    intros S f d xs c s R. pose proof (retain_loop S f c xs [] [] d s R) as H. cbv zeta in H. cbn [length Nat.add] in H.
    unfold Retain, Len. rewrite (rep_len _ _ _ R), indices_0. fold (retain_body f).
    change (fun (st : VecDeque T * Z) (i : Z) => let '(d0, newLen) := st in
      value <~ mlift (GetUnchecked d0 i) ;; keep <~ f value ;;
      (if (keep : bool) then d1 <~ mlift (SetUnchecked d0 newLen value) ;; mret (d1, u64 (newLen + 1)) else mret (d0, newLen)))
      with (retain_body f).
    change (Z.of_nat 0) with 0 in H. unfold mbind.
    destruct (DequeSpec.each_filter f xs s) as [[k s']| |].
    - destruct H as (d' & tail & E & R' & Hd). rewrite E. cbn [fst snd]. unfold mret.
      eexists. split; [reflexivity|]. split; [|exact Hd]. apply (rep_shrink d' k c tail R').
    - rewrite H. reflexivity.
    - rewrite H. reflexivity.
  Qed.

  Lemma each_filter_pure : forall S (p : T -> bool) l (s : S),
    DequeSpec.each_filter (fun x => mret (p x)) l s = Ret (filter p l, s).
  Proof.
    induction l as [|x l IH]; intros s; cbn [DequeSpec.each_filter filter]; [reflexivity|].
    unfold mbind at 1, mret at 1. unfold mbind. rewrite IH. unfold mret. now destruct (p x).
  Qed.

  Definition dedup_body (eq : option (T -> T -> bool)) (st : VecDeque T * Z) (i : Z) : out (VecDeque T * Z) :=
    let '(d, newLen) := st in
    x <- GetUnchecked d i ;; e <- of_option eq ;; y <- GetUnchecked d (u64 (newLen - 1)) ;;
    if negb (e x y) then d <- SetUnchecked d newLen x ;; Ret (d, u64 (newLen + 1)) else Ret (d, newLen).

  Lemma dedup_loop : forall e c rest kept y mid d, rep d (kept ++ y :: mid ++ rest) c ->
    exists d' tail, oloop (dedup_body (Some e)) (map Z.of_nat (seq (length kept + 1 + length mid) (length rest))) (d, Z.of_nat (length kept + 1))
      = Ret (d', Z.of_nat (length kept + 1 + length (dedup_after (fun k x => e x k) y rest)))
      /\ rep d' (kept ++ y :: dedup_after (fun k x => e x k) y rest ++ tail) c /\ head d' = head d.
  Proof.
    intros e c. induction rest as [|x rest IH]; intros kept y mid d R.
    - cbn. exists d, mid. rewrite Nat.add_0_r. rewrite app_nil_r in R. auto.
    - cbn [length seq map oloop dedup_after].
      pose proof (rep_pos _ _ _ R) as P. rewrite app_length in P. cbn [length] in P. rewrite app_length in P. cbn [length] in P.
      assert (G : GetUnchecked d (Z.of_nat (length kept + 1 + length mid)) = Ret x).
      { eapply GetUnchecked_spec; eauto. rewrite nth_error_app2 by lia.
        replace (length kept + 1 + length mid - length kept)%nat with (S (length mid)) by lia. cbn [nth_error].
        rewrite nth_error_app2, Nat.sub_diag by lia. reflexivity. }
      assert (G2 : GetUnchecked d (Z.of_nat (length kept)) = Ret y).
      { eapply GetUnchecked_spec; eauto. rewrite nth_error_app2, Nat.sub_diag by lia. reflexivity. }
      unfold dedup_body at 1. rewrite G. cbn [bind of_option]. rewrite u64_small by lia.
      replace (Z.of_nat (length kept + 1) - 1) with (Z.of_nat (length kept)) by lia. rewrite G2. cbn [bind].
      destruct (e x y); cbn [negb].
      + specialize (IH kept y (mid ++ [x]) d). rewrite <- app_assoc in IH. specialize (IH R).
        rewrite app_length in IH. cbn [length] in IH.
        replace (length kept + 1 + (length mid + 1))%nat with (S (length kept + 1 + length mid)) in IH by lia.
        cbn [bind]. exact IH.
      + destruct (list_set_middle (kept ++ [y]) mid rest x) as (mid' & L' & Eq').
        rewrite app_length in Eq'. cbn [length] in Eq'.
        destruct (SetUnchecked_spec d _ c (length kept + 1) x R) as (d1 & E1 & R1).
        { rewrite !app_length. cbn [length]. rewrite !app_length. cbn [length]. lia. }
        rewrite E1. cbn [bind]. rewrite u64_small by lia.
        replace (kept ++ y :: mid ++ x :: rest) with ((kept ++ [y]) ++ mid ++ x :: rest) in R1
          by (rewrite <- app_assoc; reflexivity).
        rewrite Eq' in R1. specialize (IH (kept ++ [y]) x mid' d1).
        rewrite <- app_assoc in R1. cbn [app] in R1. specialize (IH R1).
        rewrite app_length in IH. cbn [length] in IH.
        replace (length kept + 1 + 1 + length mid')%nat with (S (length kept + 1 + length mid)) in IH by lia.
        replace (Z.of_nat (length kept + 1) + 1) with (Z.of_nat (length kept + 1 + 1)) by lia.
        destruct IH as (d2 & tail & E2 & R2 & H2). exists d2, tail. split; [|split].
        * rewrite E2. cbn [length]. do 2 f_equal. lia.
        * rewrite <- app_assoc in R2. exact R2.
        * rewrite H2. unfold SetUnchecked in E1. destruct (bupd _ _ _); try discriminate. cbn [bind] in E1. now injection E1 as <-.
  Qed.

  Lemma Dedup_spec : forall e d xs c, rep d xs c ->
    exists d', Dedup (Some e) d = Ret d' /\ rep d' (dedup (fun k x => e x k) xs) c /\ head d' = head d.
  Proof.
    intros e d xs c R. unfold Dedup, IsEmpty, Len. rewrite (rep_len _ _ _ R). destruct xs as [|x xs].
    - exists d. cbn. auto.
    - cbn [length]. destruct (Z.eqb_spec (Z.of_nat (S (length xs))) 0); [lia|]. rewrite indices_1.
      destruct (dedup_loop e c xs [] x [] d R) as (d' & tail & E & R' & H). cbn [length Nat.add] in E.
      change (Z.of_nat 1) with 1 in E. fold (dedup_body (Some e)).
      change (fun (st : VecDeque T * Z) (i : Z) => let '(d0, newLen) := st in
        x0 <- GetUnchecked d0 i ;; e0 <- of_option (Some e) ;; y <- GetUnchecked d0 (u64 (newLen - 1)) ;;
        (if negb (e0 x0 y) then d1 <- SetUnchecked d0 newLen x0 ;; Ret (d1, u64 (newLen + 1)) else Ret (d0, newLen)))
        with (dedup_body (Some e)).
      rewrite E. cbn [bind fst snd]. eexists. split; [reflexivity|]. split; [|exact H].
      cbn [dedup]. apply (rep_shrink d' (x :: dedup_after (fun k x => e x k) x xs) c tail). exact R'.
  Qed.

  Lemma FillWith_spec : forall S (f : M S T) d xs c s, rep d xs c ->
    match DequeSpec.replicate f (length xs) s with
    | Ret (ys, s') => exists d', FillWith d f s = Ret (d', s') /\ rep d' ys c /\ length ys = length xs /\ head d' = head d
    | Panic => FillWith d f s = Panic
    | Diverge => FillWith d f s = Diverge
    end.
  Proof.
    intros S f d xs c s R. unfold FillWith, Len. rewrite (rep_len _ _ _ R), indices_0.
    assert (H : forall rest done d s, rep d (done ++ rest) c ->
      let loop := mloop (fun d i => x <~ f ;; mlift (SetUnchecked d i x)) (map Z.of_nat (seq (length done) (length rest))) d s in
      match DequeSpec.replicate f (length rest) s with
      | Ret (ys, s') => exists d', loop = Ret (d', s') /\ rep d' (done ++ ys) c /\ length ys = length rest /\ head d' = head d
      | Panic => loop = Panic
      | Diverge => loop = Diverge
      end).
    { induction rest as [|x rest IH]; intros done d0 s0 R0 loop.
      - cbn. exists d0. auto.
      - unfold loop; clear loop. cbn [length seq map mloop DequeSpec.replicate].
        destruct (f s0) as [[y s1]| |] eqn:F.
        2:{ mstep F. erewrite mbind_Panic; [reflexivity|]. now mstep F. }
        2:{ mstep F. erewrite mbind_Diverge; [reflexivity|]. now mstep F. }
        destruct (SetUnchecked_spec d0 _ c (length done) y R0) as (d1 & E1 & R1).
        { rewrite app_length. cbn [length]. lia. }
        assert (B : mbind f (fun x => mlift (SetUnchecked d0 (Z.of_nat (length done)) x)) s0 = Ret (d1, s1)).
        { mstep F. now apply mlift_Ret. }
        mstep B. mstep F.
        rewrite list_set_app2, Nat.sub_diag in R1 by lia. cbn [list_set] in R1.
        specialize (IH (done ++ [y]) d1 s1). rewrite <- app_assoc in IH. specialize (IH R1). cbv zeta in IH.
        rewrite app_length in IH. cbn [length] in IH. rewrite Nat.add_1_r in IH.
        destruct (DequeSpec.replicate f (length rest) s1) as [[ys s2]| |] eqn:Ef; mstep Ef; auto.
        destruct IH as (d2 & E2 & R2 & L2 & H2). unfold mret. exists d2. split; [exact E2|].
        rewrite <- app_assoc in R2. split; [exact R2|]. cbn [length]. split; [lia|].
        rewrite H2. unfold SetUnchecked in E1. destruct (bupd _ _ _); try discriminate. cbn [bind] in E1. now injection E1 as <-. }
    apply (H xs [] d s R).
  Qed.
  Lemma replicate_pure : forall S (x : T) n (s : S), DequeSpec.replicate (mret x) n s = Ret (repeat x n, s).
  Proof.
    induction n; intros s; cbn [DequeSpec.replicate repeat]; [reflexivity|].
    unfold mbind at 1, mret at 1. unfold mbind. rewrite IHn. reflexivity.
  Qed.
  Lemma mloop_pure : forall S A X (f : A -> X -> out A) l a (s : S),
    mloop (fun a x => mlift (f a x)) l a s = (r <- oloop f l a ;; Ret (r, s)).
  Proof.
    induction l as [|x l IH]; intros a s; cbn [mloop oloop bind]; [reflexivity|].
    unfold mbind, mlift at 1. destruct (f a x); cbn [bind]; auto.
  Qed.
  Lemma Fill_spec : forall d xs c x, rep d xs c ->
    exists d', Fill d x = Ret d' /\ rep d' (map (fun _ => x) xs) c /\ head d' = head d.
  Proof.
    intros d xs c x R. pose proof (FillWith_spec unit (mret x) d xs c tt R) as H.
    rewrite replicate_pure in H. destruct H as (d' & E & R' & _ & Hd).
    unfold FillWith in E. exists d'. split; [|split; auto].
    - unfold Fill. change (fun (d : VecDeque T) (i : Z) => x0 <~ mret x ;; mlift (SetUnchecked d i x0))
        with (fun (d : VecDeque T) (i : Z) => mlift (S := unit) (SetUnchecked d i x)) in E.
      rewrite mloop_pure in E. destruct (oloop _ _ _); try discriminate. cbn [bind] in E. now injection E as ->.
    - replace (map (fun _ => x) xs) with (repeat x (length xs)); auto.
      clear. induction xs; cbn; congruence.
  Qed.

  Lemma Contains_spec : forall e d xs c v, rep d xs c -> Contains (Some e) d v = Ret (existsb (e v) xs).
  Proof.
    intros e d xs c v R. unfold Contains, Len. rewrite (rep_len _ _ _ R), indices_0. cbn [of_option bind].
    assert (H : forall rest done, xs = done ++ rest ->
      contains_loop e v d (map Z.of_nat (seq (length done) (length rest))) = Ret (existsb (e v) rest)).
    { induction rest as [|y rest IH]; intros done E; cbn [length seq map contains_loop existsb]; [reflexivity|].
      rewrite (get_unwrap_spec _ _ _ _ y R) by (rewrite E, nth_error_app2, Nat.sub_diag by lia; reflexivity).
      cbn [bind]. destruct (e v y); [reflexivity|]. cbn [orb].
      specialize (IH (done ++ [y])). rewrite app_length in IH. cbn [length] in IH. rewrite Nat.add_1_r in IH.
      apply IH. rewrite E, <- app_assoc. reflexivity. }
    now apply (H xs []).
  Qed.

  Lemma Eq_spec : forall e d xs c d2 ys c2, rep d xs c -> rep d2 ys c2 ->
    DequeModel.Eq (Some e) d d2 = Ret (same_elements e xs ys).
  Proof.
    intros e d xs c d2 ys c2 R R2. unfold DequeModel.Eq, Len. rewrite (rep_len _ _ _ R), (rep_len _ _ _ R2).
    destruct (Z.eqb_spec (Z.of_nat (length xs)) (Z.of_nat (length ys))) as [L|L]; cbn [negb].
    - apply Nat2Z.inj in L. rewrite indices_0.
      assert (H : forall rest done rest2 done2, xs = done ++ rest -> ys = done2 ++ rest2 ->
        length done = length done2 -> length rest = length rest2 ->
        DequeModel.eq_loop (Some e) d d2 (map Z.of_nat (seq (length done) (length rest))) = Ret (same_elements e rest rest2)).
      { induction rest as [|x rest IH]; intros done [|y rest2] done2 E E2 L1 L2; try discriminate L2;
          cbn [length seq map DequeModel.eq_loop same_elements]; [reflexivity|].
        rewrite (get_unwrap_spec _ _ _ _ x R) by (rewrite E, nth_error_app2, Nat.sub_diag by lia; reflexivity).
        cbn [bind of_option].
        rewrite (get_unwrap_spec _ _ _ _ y R2) by (rewrite E2, L1, nth_error_app2, Nat.sub_diag by lia; reflexivity).
        cbn [bind]. destruct (e x y); cbn [negb andb]; [|reflexivity].
        specialize (IH (done ++ [x]) rest2 (done2 ++ [y])). rewrite !app_length in IH. cbn [length] in *.
        rewrite !Nat.add_1_r in IH. apply IH; [rewrite E, <- app_assoc; reflexivity | rewrite E2, <- app_assoc; reflexivity | lia | lia]. }
      now apply (H xs [] ys []).
    - assert (F : forall a b, length a <> length b -> same_elements e a b = false).
      { clear. induction a; destruct b; cbn; intros; auto; try congruence. rewrite IHa by congruence. apply andb_false_r. }
      rewrite F by lia. reflexivity.
  Qed.

  Lemma Display_spec : forall display d xs c, rep d xs c ->
    Display (Some display) d = Ret ([86; 101; 99; 68; 101; 113; 117; 101; 91] ++ comma_separated (map display xs) ++ [93]).
  Proof.
    intros display d xs c R. pose proof (rep_pos _ _ _ R) as P. unfold Display, Len. rewrite (rep_len _ _ _ R), indices_0.
    assert (H : forall rest done b, xs = done ++ rest ->
      oloop (fun b i => e <- get_unwrap d i ;; f <- of_option (Some display) ;;
         Ret (if negb (i =? u64 (Z.of_nat (length xs) - 1)) then (b ++ f e) ++ [44; 32] else b ++ f e))
        (map Z.of_nat (seq (length done) (length rest))) b = Ret (b ++ comma_separated (map display rest))).
    { induction rest as [|y rest IH]; intros done b E; cbn [length seq map oloop].
      - cbn. now rewrite app_nil_r.
      - rewrite (get_unwrap_spec _ _ _ _ y R) by (rewrite E, nth_error_app2, Nat.sub_diag by lia; reflexivity).
        cbn [bind of_option].
        specialize (IH (done ++ [y])). rewrite app_length in IH. cbn [length] in IH. rewrite Nat.add_1_r in IH.
        assert (Ll : length xs = (length done + S (length rest))%nat) by (rewrite E, app_length; reflexivity).
        rewrite IH by (rewrite E, <- app_assoc; reflexivity). f_equal.
        rewrite u64_small by lia. destruct rest as [|z rest].
        + cbn [length] in Ll. destruct (Z.eqb_spec (Z.of_nat (length done)) (Z.of_nat (length xs) - 1)); [|lia].
          cbn. now rewrite app_nil_r.
        + cbn [length] in Ll. destruct (Z.eqb_spec (Z.of_nat (length done)) (Z.of_nat (length xs) - 1)); [lia|].
          cbn [negb map comma_separated]. now rewrite <- !app_assoc. }
    rewrite (H xs [] _ eq_refl). cbn [bind]. now rewrite <- app_assoc.
  Qed.

  (** *** Iteration *)
  Lemma Next_spec : forall d xs c i, rep d xs c -> (i <= length xs)%nat ->
    DequeModel.Next (DequeModel.mkIter d (Z.of_nat i)) =
      Ret (DequeModel.mkIter d (Z.of_nat (if i <? length xs then S i else i)%nat), nth_error xs i).
  Proof.
    intros d xs c i R Hi. pose proof (rep_pos _ _ _ R) as P. unfold DequeModel.Next, Len. cbn [deque DequeModel.position].
    rewrite (rep_len _ _ _ R). destruct (Z.leb_spec (Z.of_nat (length xs)) (Z.of_nat i)); destruct (Nat.ltb_spec i (length xs)); try lia.
    - do 2 f_equal. symmetry. apply nth_error_None. lia.
    - rewrite (Get_spec _ _ _ _ R). cbn [bind]. rewrite u64_small by lia. do 3 f_equal. lia.
  Qed.

  Lemma push_each : forall S (f : T -> M S T) c xs n ys s, rep n ys c -> (length ys + length xs <= c)%nat ->
    let loop := mloop (fun n x => y <~ f x ;; mlift (PushBack zero limit n y)) xs n s in
    match DequeSpec.each_map f xs s with
    | Ret (zs, s') => exists n', loop = Ret (n', s') /\ rep n' (ys ++ zs) c
    | Panic => loop = Panic
    | Diverge => loop = Diverge
    end.
  Proof.
    intros S f c. induction xs as [|x xs IH]; intros n ys s R L loop; unfold loop; clear loop; cbn [mloop DequeSpec.each_map].
    - exists n. rewrite app_nil_r. auto.
    - cbn [length] in L. destruct (f x s) as [[y s1]| |] eqn:F.
      2:{ mstep F. erewrite mbind_Panic; [reflexivity|]. now mstep F. }
      2:{ mstep F. erewrite mbind_Diverge; [reflexivity|]. now mstep F. }
      pose proof (rep_pos _ _ _ R) as P.
      assert (Ro : roomier (length ys) c = c) by (unfold roomier; destruct (Nat.eqb_spec (length ys) c); lia).
      destruct (PushBack_spec n ys c y R) as (n1 & E1 & R1); [lia|]. rewrite Ro in R1.
      assert (B : mbind (f x) (fun y => mlift (PushBack zero limit n y)) s = Ret (n1, s1)).
      { mstep F. now apply mlift_Ret. }
      mstep B. mstep F.
      specialize (IH n1 (ys ++ [y]) s1 R1). rewrite app_length in IH. cbn [length] in IH.
      specialize (IH ltac:(lia)). cbv zeta in IH.
      destruct (DequeSpec.each_map f xs s1) as [[zs s2]| |] eqn:Ef; mstep Ef; auto.
      destruct IH as (n2 & E2 & R2). unfold mret. exists n2. rewrite <- app_assoc in R2. auto.
  Qed.
  Lemma push_filter : forall S (f : T -> M S bool) c xs n ys s, rep n ys c -> (length ys + length xs <= c)%nat ->
    let loop := mloop (fun n x => b <~ f x ;; if (b : bool) then mlift (PushBack zero limit n x) else mret n) xs n s in
    match DequeSpec.each_filter f xs s with
    | Ret (zs, s') => exists n', loop = Ret (n', s') /\ rep n' (ys ++ zs) c
    | Panic => loop = Panic
    | Diverge => loop = Diverge
    end.
  Proof.
    intros S f c. induction xs as [|x xs IH]; intros n ys s R L loop; unfold loop; clear loop; cbn [mloop DequeSpec.each_filter].
    - exists n. rewrite app_nil_r. auto.
    - cbn [length] in L. destruct (f x s) as [[b s1]| |] eqn:F.
      2:{ mstep F. erewrite mbind_Panic; [reflexivity|]. now mstep F. }
      2:{ mstep F. erewrite mbind_Diverge; [reflexivity|]. now mstep F. }
      pose proof (rep_pos _ _ _ R) as P.
      assert (Ro : roomier (length ys) c = c) by (unfold roomier; destruct (Nat.eqb_spec (length ys) c); lia).
      destruct b.
      + destruct (PushBack_spec n ys c x R) as (n1 & E1 & R1); [lia|]. rewrite Ro in R1.
        assert (B : mbind (f x) (fun b : bool => if b then mlift (PushBack zero limit n x) else mret n) s = Ret (n1, s1)).
        { mstep F. now apply mlift_Ret. }
        mstep B. mstep F.
        specialize (IH n1 (ys ++ [x]) s1 R1). rewrite app_length in IH. cbn [length] in IH.
        specialize (IH ltac:(lia)). cbv zeta in IH.
        destruct (DequeSpec.each_filter f xs s1) as [[zs s2]| |] eqn:Ef; mstep Ef; auto.
        destruct IH as (n2 & E2 & R2). unfold mret. exists n2. rewrite <- app_assoc in R2. auto.
      + assert (B : mbind (f x) (fun b : bool => if b then mlift (PushBack zero limit n x) else mret n) s = Ret (n, s1)).
        { now mstep F. }
        mstep B. mstep F. specialize (IH n ys s1 R ltac:(lia)). cbv zeta in IH.
        destruct (DequeSpec.each_filter f xs s1) as [[zs s2]| |] eqn:Ef; mstep Ef; auto.
  Qed.
  Lemma fresh_copy : forall d xs c, rep d xs c ->
    exists n, VecDequeWithCapacity zero limit (Capacity d) = Ret n /\ rep n [] c /\ (length xs <= c)%nat.
  Proof.
    intros d xs c R. pose proof (rep_pos _ _ _ R) as P. rewrite (rep_cap _ _ _ R).
    destruct (WithCapacity_spec c) as (n & E & R'); [lia|]. replace (Nat.max c 1) with c in R' by lia.
    exists n. split; [auto|]. split; [auto|]. lia.
  Qed.
  Lemma It_Map_spec : forall S (f : T -> M S T) d xs c i s, rep d xs c ->
    match DequeSpec.each_map f xs s with
    | Ret (zs, s') => exists n, It_Map zero limit (DequeModel.mkIter d i) f s = Ret (DequeModel.IntoIter n, s') /\ rep n zs c
    | Panic => It_Map zero limit (DequeModel.mkIter d i) f s = Panic
    | Diverge => It_Map zero limit (DequeModel.mkIter d i) f s = Diverge
    end.
  Proof.
    intros S f d xs c i s R. unfold It_Map, Len. cbn [deque]. destruct (fresh_copy d xs c R) as (n & E & Rn & L).
    apply (mlift_Ret S _ _ _ s) in E. mstep E. rewrite (rep_len _ _ _ R), indices_0.
    pose proof (mloop_get S _ (fun n x => y <~ f x ;; mlift (PushBack zero limit n y)) (get_unwrap (T := T)) d xs
      ltac:(intros; eapply get_unwrap_spec; eauto) n s) as Q.
    pose proof (push_each S f c xs n [] s Rn L) as H. cbv zeta in H. rewrite <- Q in H.
    destruct (DequeSpec.each_map f xs s) as [[zs s']| |].
    - destruct H as (n' & E' & R'). mstep E'. unfold mret. eauto.
    - now mstep H.
    - now mstep H.
  Qed.
  Lemma It_Filter_spec : forall S (f : T -> M S bool) d xs c i s, rep d xs c ->
    match DequeSpec.each_filter f xs s with
    | Ret (zs, s') => exists n, It_Filter zero limit (DequeModel.mkIter d i) f s = Ret (DequeModel.IntoIter n, s') /\ rep n zs c
    | Panic => It_Filter zero limit (DequeModel.mkIter d i) f s = Panic
    | Diverge => It_Filter zero limit (DequeModel.mkIter d i) f s = Diverge
    end.
  Proof.
    intros S f d xs c i s R. unfold It_Filter, Len. cbn [deque]. destruct (fresh_copy d xs c R) as (n & E & Rn & L).
    apply (mlift_Ret S _ _ _ s) in E. mstep E. rewrite (rep_len _ _ _ R), indices_0.
    pose proof (mloop_get S _ (fun n x => b <~ f x ;; if (b : bool) then mlift (PushBack zero limit n x) else mret n) (get_unwrap (T := T)) d xs
      ltac:(intros; eapply get_unwrap_spec; eauto) n s) as Q.
    pose proof (push_filter S f c xs n [] s Rn L) as H. cbv zeta in H. rewrite <- Q in H.
    destruct (DequeSpec.each_filter f xs s) as [[zs s']| |].
    - destruct H as (n' & E' & R'). mstep E'. unfold mret. eauto.
    - now mstep H.
    - now mstep H.
  Qed.
  Lemma It_Fold_spec : forall S (f : T -> T -> M S T) d xs c i a s, rep d xs c ->
    It_Fold (DequeModel.mkIter d i) a f s = DequeSpec.each_fold f a xs s.
  Proof.
    intros S f d xs c i a s R. unfold It_Fold, Len. cbn [deque]. rewrite (rep_len _ _ _ R), indices_0.
    rewrite (mloop_get S _ f (get_unwrap (T := T)) d xs) by (intros; eapply get_unwrap_spec; eauto).
    clear R. revert a s. induction xs as [|x xs IH]; intros a s; cbn [mloop DequeSpec.each_fold]; [reflexivity|].
    unfold mbind. destruct (f a x s) as [[a' s']| |]; auto.
  Qed.
  Lemma It_Collect_spec : forall d xs c i, rep d xs c -> It_Collect (DequeModel.mkIter d i) = Ret xs.
  Proof.
    intros d xs c i R. unfold It_Collect, Len. cbn [deque]. rewrite (rep_len _ _ _ R), indices_0.
    rewrite (oloop_get _ (fun l x => Ret (l ++ [x])) (get_unwrap (T := T)) d xs) by (intros; eapply get_unwrap_spec; eauto).
    assert (H : forall (r l : list T), oloop (fun l x => Ret (l ++ [x])) r l = Ret (l ++ r)).
    { clear. induction r; intros; cbn [oloop bind]; [now rewrite app_nil_r|]. rewrite IHr, <- app_assoc. reflexivity. }
    apply (H xs []).
  Qed.
  (** Rev runs into index 2^64 - 1. *)
  Lemma It_Rev_panics : forall d xs c i, rep d xs c -> It_Rev zero limit (DequeModel.mkIter d i) = Panic.
  Proof.
    intros d xs c i R. unfold It_Rev, Len. cbn [deque]. destruct (fresh_copy d xs c R) as (n & E & Rn & L).
    rewrite E. cbn [bind]. rewrite (rep_len _ _ _ R). rewrite Nat2Z.id.
    pose proof (rep_pos _ _ _ R) as P.
    assert (G : get_unwrap d (2 ^ 64 - 1) = Panic).
    { unfold get_unwrap, Get, Len. rewrite (rep_len _ _ _ R).
      destruct (Z.leb_spec (Z.of_nat (length xs)) (2 ^ 64 - 1)); [reflexivity|lia]. }
    assert (H : forall k n ys, rep n ys c -> (k <= length xs)%nat -> (length ys + k <= c)%nat ->
      rev_loop zero limit (k + 1) d n (u64 (Z.of_nat k - 1)) = Panic).
    { induction k as [|k IH]; intros m ys Rm Hk Hc; cbn [Nat.add rev_loop].
      - change (u64 (Z.of_nat 0 - 1)) with (2 ^ 64 - 1). rewrite G. reflexivity.
      - rewrite u64_small by lia. replace (Z.of_nat (S k) - 1) with (Z.of_nat k) by lia.
        destruct (nth_error xs k) as [x|] eqn:N; [|apply nth_error_None in N; lia].
        rewrite (get_unwrap_spec _ _ _ _ _ R N). cbn [bind].
        assert (Ro : roomier (length ys) c = c) by (unfold roomier; destruct (Nat.eqb_spec (length ys) c); lia).
        destruct (PushBack_spec m ys c x Rm) as (m1 & E1 & R1); [lia|]. rewrite Ro in R1. rewrite E1. cbn [bind].
        apply (IH m1 (ys ++ [x])); [auto | lia | rewrite app_length; cbn [length]; lia]. }
    rewrite (H (length xs) n []) by (auto; cbn [length]; lia). reflexivity.
  Qed.
End Deque.
