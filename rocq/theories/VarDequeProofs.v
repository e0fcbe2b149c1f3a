(** VarDequeProofs.v -- copied VecDeque and BTreeMap headers: proofs. *)
From Coq Require Import List ZArith Lia.
From Verif Require Import Base BaseLemmas Effect DequeModel DequeProofs VarModel.
From Verif Require BTreeModel.
Import ListNotations.
Local Open Scope Z_scope.

Section DequeRef.
  Context {T : Type}.
  Variable zero : T.
  Variable limit : Z.
  Hypothesis limit_ok : 7 <= limit < 2 ^ 63.
  Notation rep := (rep limit).
  Implicit Types (d r : VecDeque T) (xs : list T).

  Lemma not_full : forall b h xs, (length xs < length b)%nat -> IsFull (deq_of b h xs) = false.
  Proof. intros b h xs L. unfold IsFull, Capacity. cbn [deq_of dlen buffer]. apply Z.eqb_neq. lia. Qed.
  Lemma push_back_eq : forall b h xs x, (h < length b)%nat -> (length xs < length b)%nat -> Z.of_nat (length b) <= limit ->
    PushBack zero limit (deq_of b h xs) x = Ret (deq_of (list_set b (ring (length b) h (length xs)) x) h (xs ++ [x])).
  Proof.
    intros b h xs x Hh L Hl. unfold PushBack. rewrite not_full by auto. cbn [bind].
    change (dlen (deq_of b h xs)) with (Z.of_nat (length xs)). rewrite (phys limit limit_ok) by lia.
    change (buffer (deq_of b h xs)) with b. rewrite bupd_nat, upd_Ret by (apply ring_lt; lia). cbn [bind].
    unfold deq_of. cbn [head]. rewrite app_length. cbn [length]. rewrite u64_small by lia. do 2 f_equal. lia.
  Qed.
  Lemma seen_same : forall b b' h h' xs ys, length b' = length b -> Deque_seen (deq_of b h xs) (deq_of b' h' ys) = deq_of b' h xs.
  Proof. intros b b' h h' xs ys E. unfold Deque_seen, Capacity. cbn [deq_of buffer dlen head]. now rewrite E, Z.eqb_refl. Qed.
  Lemma repr_other : forall b h xs j x, repr b h xs -> (length xs <= j < length b)%nat -> repr (list_set b (ring (length b) h j) x) h xs.
  Proof.
    intros b h xs j x (Hh & Hl & Hn) L. unfold repr. rewrite list_set_length. split; [auto|]. split; [auto|]. intros i Hi.
    rewrite nth_error_list_set_neq; [now apply Hn|]. intros E. apply ring_inj in E; lia.
  Qed.
  Lemma list_set_set : forall A (l : list A) i x y, list_set (list_set l i x) i y = list_set l i y.
  Proof. induction l as [|a l IH]; intros [|i] x y; cbn; auto. now rewrite IH. Qed.

  Lemma deque_push_back : forall d xs c x y, rep d xs c -> (length xs < c)%nat ->
    exists r, PushBack zero limit d x = Ret r /\ rep r (xs ++ [x]) c /\ rep (Deque_seen d r) xs c /\
    exists v, PushBack zero limit (Deque_seen d r) y = Ret v /\ rep v (xs ++ [y]) c /\ rep (Deque_seen r v) (xs ++ [y]) c.
  Proof.
    intros d xs c x y (b & h & -> & R & Lb & Hl) L. subst c. pose proof R as (Hh & HL & _).
    exists (deq_of (list_set b (ring (length b) h (length xs)) x) h (xs ++ [x])). split; [now apply push_back_eq|].
    split. { eexists _, _. split; [reflexivity|]. rewrite list_set_length. split; [now apply repr_push_back|]. auto. }
    rewrite seen_same by apply list_set_length. split. { eexists _, _. split; [reflexivity|]. rewrite list_set_length. split; [apply repr_other; auto; lia|]. auto. }
    exists (deq_of (list_set b (ring (length b) h (length xs)) y) h (xs ++ [y])).
    split. { rewrite push_back_eq; rewrite ?list_set_length; auto. now rewrite list_set_set. }
    split. { eexists _, _. split; [reflexivity|]. rewrite list_set_length. split; [now apply repr_push_back|]. auto. }
    rewrite seen_same by now rewrite !list_set_length.
    replace (deq_of (list_set b (ring (length b) h (length xs)) y) h (xs ++ [x])) with (deq_of (list_set b (ring (length b) h (length xs)) y) h (xs ++ [y])).
    - eexists _, _. split; [reflexivity|]. rewrite list_set_length. split; [now apply repr_push_back|]. auto.
    - unfold deq_of. rewrite !app_length. reflexivity.
  Qed.
  Lemma deque_push_full : forall d xs x, rep d xs (length xs) -> 2 * Z.of_nat (length xs) <= limit ->
    exists r, PushBack zero limit d x = Ret r /\ rep r (xs ++ [x]) (2 * length xs) /\ Deque_seen d r = d.
  Proof.
    intros d xs x R L. pose proof (rep_pos _ _ _ _ R) as P. destruct (PushBack_spec zero limit limit_ok d xs (length xs) x R) as (r & E & R').
    { unfold roomier. rewrite Nat.eqb_refl. lia. }
    unfold roomier in R'. rewrite Nat.eqb_refl in R'. exists r. split; [exact E|].
    replace (2 * length xs)%nat with (length xs + length xs)%nat by lia. split; [exact R'|].
    unfold Deque_seen. rewrite (rep_cap _ _ _ _ R), (rep_cap _ _ _ _ R'). rewrite (proj2 (Z.eqb_neq _ _)) by lia. reflexivity.
  Qed.
  Lemma deque_pop_push : forall d xs x c y, rep d (xs ++ [x]) c ->
    exists r r2, PopBack d = Ret (r, Some x) /\ rep r xs c /\ rep (Deque_seen d r) (xs ++ [x]) c /\
      PushBack zero limit r y = Ret r2 /\ rep r2 (xs ++ [y]) c /\ rep (Deque_seen d r2) (xs ++ [y]) c.
  Proof.
    intros d xs x c y R0. pose proof (PopBack_snoc limit limit_ok d x xs c R0) as (r & E & R1).
    pose proof R0 as (b & h & -> & R & Lb & Hl). subst c. pose proof R as (Hh & HL & _). rewrite app_length in HL. cbn [length] in HL.
    assert (r = deq_of b h xs).
    { unfold PopBack in E. change (IsEmpty (deq_of b h (xs ++ [x]))) with (Z.of_nat (length (xs ++ [x])) =? 0) in E.
      rewrite app_length in E. cbn [length] in E. rewrite (proj2 (Z.eqb_neq _ _)) in E by lia. cbv zeta in E.
      destruct (bidx _ _) as [z| |]; cbn [bind] in E; try discriminate. inversion E as [[E1 E2]]. unfold deq_of. cbn [buffer dlen head].
      f_equal. rewrite app_length. cbn [length]. rewrite u64_small by lia. lia. }
    subst r. destruct (repr_pop_back _ _ _ _ R) as (_ & R').
    exists (deq_of b h xs), (deq_of (list_set b (ring (length b) h (length xs)) y) h (xs ++ [y])).
    split; [exact E|]. split; [exact R1|]. split. { rewrite seen_same by reflexivity. exact R0. }
    split. { apply push_back_eq; auto; lia. }
    assert (RR : rep (deq_of (list_set b (ring (length b) h (length xs)) y) h (xs ++ [y])) (xs ++ [y]) (length b)).
    { eexists _, _. split; [reflexivity|]. rewrite list_set_length. split; [apply repr_push_back; auto; lia|]. auto. }
    split; [exact RR|]. rewrite seen_same by apply list_set_length.
    replace (deq_of (list_set b (ring (length b) h (length xs)) y) h (xs ++ [x])) with (deq_of (list_set b (ring (length b) h (length xs)) y) h (xs ++ [y])); [exact RR|].
    unfold deq_of. rewrite !app_length. reflexivity.
  Qed.
End DequeRef.

Section BTreeRef.
  Import BTreeModel.
  Context {K V : Type}.
  Variable cmp : K -> K -> ordering.
  Implicit Types (h : heap K V).

  Lemma insert_root : forall m k v h m' o h', Insert cmp m k v h = Ret (m', o, h') ->
    match root m with
    | None => root m' <> None /\ o = None
    | Some r =>
        (root m' = root m /\ len m' = match o with Some _ => len m | None => u64 (len m + 1) end) \/
        (exists nd r', nth_error h r = Some nd /\ n nd = cap /\ o = None /\ root m' = Some r' /\ nth_error h r' = None)
    end.
  Proof.
    intros m k v h m' o h' H. unfold Insert in H. destruct (root m) as [r|] eqn:R.
    - unfold mbind at 1 in H. destruct (search cmp (fuel h) h r k) as [[[a i]|]| |]; cbn [bind] in H; try discriminate.
      + left. unfold mbind, rd, lift, wr, mret in H.
        destruct (idx h a) as [nd| |]; cbn [bind] in H; try discriminate.
        destruct (idx (values nd) i) as [old| |]; cbn [bind] in H; try discriminate.
        destruct (upd (values nd) i (Some v)) as [vs| |]; cbn [bind] in H; try discriminate.
        destruct (upd h a _) as [h1| |]; cbn [bind] in H; try discriminate.
        destruct (of_option old) as [w| |]; cbn [bind] in H; try discriminate.
        inversion H; subst. rewrite R. auto.
      + unfold mbind at 1 in H. unfold rd at 1 in H. destruct (idx h r) as [rn| |] eqn:I; cbn [bind] in H; try discriminate.
        assert (NR : nth_error h r = Some rn) by (unfold idx in I; destruct (nth_error h r); cbn in I; congruence).
        destruct (n rn =? cap)%nat eqn:Q.
        * right. apply Nat.eqb_eq in Q. unfold mbind at 1 in H. unfold lift at 1 in H.
          destruct (upd _ 0 (Some r)) as [cs| |]; cbn [bind] in H; try discriminate.
          unfold mbind at 1 in H. unfold alloc at 1 in H. exists rn, (length h). split; [exact NR|]. split; [exact Q|].
          unfold mbind, mret in H.
          repeat match type of H with
          | (match ?e with _ => _ end) = _ => destruct e as [[? ?]| |]; try discriminate
          end.
          inversion H; subst. split; [reflexivity|]. split; [reflexivity|]. apply nth_error_None. lia.
        * left. unfold mbind, mret in H.
          repeat match type of H with
          | (match ?e with _ => _ end) = _ => destruct e as [[? ?]| |]; try discriminate
          end.
          inversion H; subst. auto.
    - unfold mbind, lift, alloc, mret in H. destruct (set_kv _ _ _ _) as [nd| |]; cbn [bind] in H; try discriminate.
      inversion H; subst. cbn [root]. split; [discriminate|reflexivity].
  Qed.
End BTreeRef.
