(** IterShareDequeProofs.v -- deque iterators and later calls on the deque. *)
From Verif Require Import Base BaseLemmas Effect VecSpec VecProofs DequeHistory.
From Verif Require Import DequeModel DequeProofs DequeRunProofs IterShareSpec IterShareModel.
From Verif Require DequeSpec.
Local Open Scope Z_scope.
Import DequeSpec(at_, inside, dstep, dhistory, space, cost).

Section Deque.
  Context {T : Type}.
  Variable zero : T.
  Variable limit : Z.
  Hypothesis limit_ok : 7 <= limit < 2 ^ 63.
  Variable eqb : T -> T -> bool.
  Notation rep := (DequeProofs.rep (T := T) limit).
  Notation exec := (DequeHistory.exec zero limit eqb).

  Lemma dstep_det : forall (xs : list T) o xs1 a1 xs2 a2, dstep eqb xs o xs1 a1 -> dstep eqb xs o xs2 a2 -> xs1 = xs2 /\ a1 = a2.
  Proof.
    intros xs o xs1 a1 xs2 a2 H1 H2. inversion H1; subst; inversion H2; subst; auto.
    all: try (match goal with E : ?l ++ [_] = ?l' ++ [_] |- _ => apply app_inj_tail in E; destruct E; subst; auto end).
    all: try (match goal with E : _ ++ [_] = [] |- _ => now destruct (app_eq_nil _ _ E) end).
    all: try (match goal with E : [] = _ ++ [_] |- _ => symmetry in E; now destruct (app_eq_nil _ _ E) end).
    all: try (unfold inside in *; lia).
    split; [|reflexivity]. eapply exchanged_unique; eauto.
  Qed.

  (** What a call does to head and buffer when the buffer is not replaced. *)
  Definition shift (c h : nat) (xs : list T) (o : DequeSpec.dop (T := T)) : nat :=
    match o, xs with
    | DequeSpec.PushFront _, _ => if (h =? 0)%nat then (c - 1)%nat else (h - 1)%nat
    | DequeSpec.PopFront, _ :: _ => ring c h 1
    | _, _ => h
    end.
  Definition reading (o : DequeSpec.dop (T := T)) : bool :=
    match o with
    | DequeSpec.PushFront _ | DequeSpec.PushBack _ | DequeSpec.Set_ _ _ | DequeSpec.Swap _ _
    | DequeSpec.Retain _ | DequeSpec.Dedup | DequeSpec.Fill _ | DequeSpec.Clear => false
    | _ => true
    end.

  Lemma not_full : forall d xs c x d', rep d xs c -> (PushBack zero limit d x = Ret d' \/ PushFront zero limit d x = Ret d') ->
    Capacity d' = Capacity d -> IsFull d = false.
  Proof.
    intros d xs c x d' R E C. pose proof (rep_pos _ _ _ _ R) as P. pose proof (rep_cap _ _ _ _ R) as Cd.
    destruct (Z_le_gt_dec (Z.of_nat (roomier (length xs) c)) limit) as [L|L].
    - destruct (PushBack_spec zero limit limit_ok d xs c x R L) as (d1 & E1 & R1).
      destruct (PushFront_spec zero limit limit_ok d xs c x R L) as (d2 & E2 & R2).
      assert (C' : Capacity d' = Z.of_nat (roomier (length xs) c)).
      { destruct E as [E|E]; [rewrite E in E1; injection E1 as ->; eapply rep_cap; eauto|
          rewrite E in E2; injection E2 as ->; eapply rep_cap; eauto]. }
      unfold IsFull. rewrite (rep_len _ _ _ _ R), Cd. apply Z.eqb_neq. unfold roomier in C'.
      destruct (Nat.eqb_spec (length xs) c); lia.
    - destruct (Push_Panic zero limit limit_ok d xs c x R ltac:(lia)) as (E1 & E2). destruct E; congruence.
  Qed.

  Lemma exec_shape : forall d xs c o xs' a d' c' a', rep d xs c -> rep d' xs' c' -> dstep eqb xs o xs' a ->
    exec d o = Ret (d', a') -> replaced o d d' = false ->
    c' = c /\ head d' = Z.of_nat (shift c (Z.to_nat (head d)) xs o) /\ (reading o = true -> buffer d' = buffer d).
  Proof.
    intros d xs c o xs' a d' c' a' R R' St E Np.
    assert (Cq : o <> DequeSpec.Clear -> Capacity d' = Capacity d).
    { intros NC. unfold replaced in Np. destruct o; try (now apply negb_false_iff, Z.eqb_eq in Np). congruence. }
    assert (NC : o <> DequeSpec.Clear) by (intros ->; discriminate Np).
    specialize (Cq NC). split.
    { rewrite (rep_cap _ _ _ _ R), (rep_cap _ _ _ _ R') in Cq. lia. }
    pose proof R as R0. destruct R0 as (b & h & Ed & Rb & Lb & Hl). pose proof Rb as (Hh & HL & _).
    assert (Hd : Z.to_nat (head d) = h) by (subst d; cbn [deq_of head]; lia).
    assert (Same : d' = d -> (reading o = true -> buffer d' = buffer d) /\ head d' = Z.of_nat h).
    { intros ->. split; [auto|]. now rewrite Ed. }
    rewrite Hd.
    destruct o; cbn [DequeHistory.exec shift reading] in *; try congruence.
    - apply bind_Ret in E. destruct E as (d1 & E & Q). injection Q as -> _.
      pose proof (not_full d xs c x d' R (or_intror E) Cq) as F. unfold PushFront in E. rewrite F in E. cbn [bind] in E.
      apply bind_Ret in E. destruct E as (b1 & _ & E). injection E as <-. cbn [head]. split; [|discriminate].
      subst d. unfold WrapSub, WrapIndex, Capacity. cbn [deq_of head buffer].
      destruct (Nat.eqb_spec h 0) as [->|Ne].
      + change (u64 (Z.of_nat 0 - 1)) with (2 ^ 64 - 1).
        replace (u64 (2 ^ 64 - 1 + Z.of_nat (length b))) with (Z.of_nat (length b) - 1).
        * destruct (Z.leb_spec (Z.of_nat (length b)) (Z.of_nat (length b) - 1)); lia.
        * unfold u64. replace (2 ^ 64 - 1 + Z.of_nat (length b)) with (Z.of_nat (length b) - 1 + 1 * 2 ^ 64) by lia.
          rewrite Z.mod_add by lia. rewrite Z.mod_small; lia.
      + rewrite (u64_small (Z.of_nat h - 1)) by lia. rewrite (u64_small (Z.of_nat h - 1 + Z.of_nat (length b))) by lia.
        destruct (Z.leb_spec (Z.of_nat (length b)) (Z.of_nat h - 1 + Z.of_nat (length b))); [|lia].
        rewrite u64_small by lia. lia.
    - apply bind_Ret in E. destruct E as (d1 & E & Q). injection Q as -> _.
      pose proof (not_full d xs c x d' R (or_introl E) Cq) as F. unfold PushBack in E. rewrite F in E. cbn [bind] in E.
      apply bind_Ret in E. destruct E as (b1 & _ & E). injection E as <-. cbn [head]. split; [|discriminate]. now subst d.
    - apply bind_Ret in E. destruct E as (p & E & Q). injection Q as <- _. unfold PopFront in E.
      unfold IsEmpty in E. rewrite (rep_len _ _ _ _ R) in E. destruct xs as [|x xs].
      + cbn in E. injection E as <-. cbn [fst]. destruct (Same eq_refl). auto.
      + cbn [length] in *. destruct (Z.eqb_spec (Z.of_nat (S (length xs))) 0); [lia|].
        apply bind_Ret in E. destruct E as (v & _ & E). injection E as <-. cbn [fst head buffer]. split; [|auto].
        subst d c. change 1 with (Z.of_nat 1). rewrite phys with (limit := limit) by lia. reflexivity.
    - apply bind_Ret in E. destruct E as (p & E & Q). injection Q as <- _. unfold PopBack in E.
      destruct (IsEmpty d); [injection E as <-; destruct (Same eq_refl); auto|].
      apply bind_Ret in E. destruct E as (v & _ & E). injection E as <-. cbn [fst head buffer]. split; [|auto]. now subst d.
    - apply bind_Ret in E. destruct E as (p & _ & Q). injection Q as <- _. destruct (Same eq_refl). auto.
    - apply bind_Ret in E. destruct E as (p & E & Q). injection Q as <- _. split; [|discriminate]. unfold Set_ in E.
      destruct (Len d <=? i); [injection E as <-; now subst d|].
      apply bind_Ret in E. destruct E as (v & _ & E). injection E as <-. now subst d.
    - apply bind_Ret in E. destruct E as (p & E & Q). injection Q as <- _. split; [|discriminate]. unfold Swap in E.
      destruct (i =? j); [injection E as <-; now subst d|].
      do 4 (apply bind_Ret in E; destruct E as (? & _ & E)). injection E as <-. now subst d.
    - apply bind_Ret in E. destruct E as (p & _ & Q). injection Q as <- _. destruct (Same eq_refl). auto.
    - apply bind_Ret in E. destruct E as (p & _ & Q). injection Q as <- _. destruct (Same eq_refl). auto.
    - injection E as <- _. destruct (Same eq_refl). auto.
    - injection E as <- _. destruct (Same eq_refl). auto.
    - apply bind_Ret in E. destruct E as (p & _ & Q). injection Q as <- _. destruct (Same eq_refl). auto.
    - apply bind_Ret in E. destruct E as (p & E & Q). injection Q as <- _.
      assert (p = d) as ->; [|destruct (Same eq_refl); auto].
      assert (Hn : 0 <= n < 2 ^ 64) by (inversion St; auto). pose proof (rep_cap _ _ _ _ R) as Cd.
      destruct (Z_le_gt_dec (Z.of_nat c + n) limit) as [Le|Gt].
      + destruct (Reserve_spec zero limit limit_ok d xs c (Z.to_nat n) R) as (d1 & E1 & R1); [lia|].
        rewrite Z2Nat.id in E1 by lia. rewrite E in E1. injection E1 as <-. pose proof (rep_cap _ _ _ _ R1) as Cp.
        unfold Reserve in E. rewrite u64_small in E by lia. destruct (Z.ltb_spec (Capacity d) (Capacity d + n)); [lia|].
        now injection E.
      + unfold Reserve in E. destruct (Z.ltb_spec (Capacity d) (u64 (Capacity d + n))) as [L|L]; [exfalso|now injection E].
        destruct (Z_lt_le_dec (Capacity d + n) (2 ^ 64)) as [B|B].
        * rewrite u64_small in E by lia. rewrite make_Panic in E by lia. discriminate.
        * unfold u64 in L. replace (Capacity d + n) with (Capacity d + n - 2 ^ 64 + 1 * 2 ^ 64) in L by lia.
          rewrite Z.mod_add in L by lia. rewrite Z.mod_small in L; lia.
    - apply bind_Ret in E. destruct E as ([q u] & E & Q). injection Q as <- _. split; [|discriminate].
      pose proof (Retain_spec limit limit_ok unit (fun x => mret (p x)) d xs c tt R) as H.
      destruct (DequeSpec.each_filter _ xs tt) as [[k u']| |]; [|congruence|congruence].
      destruct H as (d1 & E1 & _ & H). rewrite E in E1. injection E1 as <- _. rewrite H. now subst d.
    - apply bind_Ret in E. destruct E as (q & E & Q). injection Q as <- _. split; [|discriminate].
      destruct (Dedup_spec limit limit_ok eqb d xs c R) as (d1 & E1 & _ & H). rewrite E in E1. injection E1 as <-. rewrite H. now subst d.
    - apply bind_Ret in E. destruct E as (q & E & Q). injection Q as <- _. split; [|discriminate].
      destruct (Fill_spec limit limit_ok d xs c x R) as (d1 & E1 & _ & H). rewrite E in E1. injection E1 as <-. rewrite H. now subst d.
  Qed.

  (** *** The part of a ring that an iterator sees *)
  Lemma window : forall d (p l q : list T) c, rep d (p ++ l ++ q) c ->
    rep (mkDeque (buffer d) (Z.of_nat (length l)) (Z.of_nat (ring c (Z.to_nat (head d)) (length p)))) l c.
  Proof.
    intros d p l q c (b & h & -> & (Hh & HL & Hn) & Lb & Hl). rewrite !app_length in *. cbn [deq_of head buffer].
    rewrite Nat2Z.id. exists b, (ring c h (length p)). split; [reflexivity|]. split; [|auto]. subst c.
    split; [apply ring_lt; lia|]. split; [lia|]. intros i Hi.
    replace (ring (length b) (ring (length b) h (length p)) i) with (ring (length b) h (length p + i)) by ring_cases.
    rewrite Hn by lia. rewrite nth_error_app2 by lia. replace (length p + i - length p)%nat with i by lia.
    now rewrite nth_error_app1.
  Qed.

  Definition tracks (d : VecDeque T) (xs : list T) (c : nat) (w : dwatch) (it : diter) (sn : list T * nat) : Prop :=
    (exists c1, rep (hdr it) (fst sn) c1) /\ dpos it = Z.of_nat (Nat.min (snd sn) (length (fst sn))) /\
    match w with
    | Gone => attached it = false
    | Shrunk => attached it = true -> buffer (hdr it) = buffer d
    | Inside b n => n = length (fst sn) /\ (attached it = true -> buffer (hdr it) = buffer d /\
        exists p q, xs = p ++ fst sn ++ q /\ length p = b /\ head (hdr it) = Z.of_nat (ring c (Z.to_nat (head d)) b))
    end.

  Lemma hdr_eta : forall (h : VecDeque T), mkDeque (buffer h) (dlen h) (head h) = h.
  Proof. now intros []. Qed.
  Lemma rep_head : forall d xs c, rep d xs c -> (Z.to_nat (head d) < c)%nat.
  Proof. intros d xs c (b & h & -> & (Hh & _) & Lb & _). cbn [deq_of head]. lia. Qed.

  (** The elements seen stay a part of the sequence. *)
  Lemma tracks_inside : forall d' xs' c b it sn p q, rep d' xs' c -> xs' = p ++ fst sn ++ q -> length p = b ->
    (exists c1, rep (hdr it) (fst sn) c1) -> dpos it = Z.of_nat (Nat.min (snd sn) (length (fst sn))) ->
    head (hdr it) = Z.of_nat (ring c (Z.to_nat (head d')) b) ->
    tracks d' xs' c (Inside b (length (fst sn))) (mkDIter (mkDeque (buffer d') (dlen (hdr it)) (head (hdr it))) true (dpos it)) sn.
  Proof.
    intros d' xs' c b it sn p q R -> Lp (c1 & R1) Hp Hh. split; [|split; [exact Hp|]].
    - exists c. cbn [hdr]. rewrite (rep_len _ _ _ _ R1), Hh, <- Lp. eapply window; eauto.
    - split; [reflexivity|]. intros _. cbn [hdr buffer head]. split; [reflexivity|]. exists p, q. auto.
  Qed.

  Lemma ring_back : forall c h b, (h < c)%nat -> (b < c)%nat ->
    ring c h b = ring c (if (h =? 0)%nat then (c - 1)%nat else (h - 1)%nat) (S b).
  Proof. intros c h b H1 H2. destruct (Nat.eqb_spec h 0); ring_cases. Qed.
  Lemma ring_on : forall c h b, (h < c)%nat -> (b < c)%nat -> ring c (ring c h 1) b = ring c h (S b).
  Proof. intros c h b H1 H2. ring_cases. Qed.

  Lemma outside_set : forall (p l q : list T) i x, (i < length p \/ length p + length l <= i)%nat -> (i < length (p ++ l ++ q))%nat ->
    exists p' q', list_set (p ++ l ++ q) i x = p' ++ l ++ q' /\ length p' = length p.
  Proof.
    intros p l q i x [H|H] L.
    - exists (list_set p i x), q. split; [|apply list_set_length]. apply nth_error_ext. intros j.
      destruct (Nat.eq_dec i j) as [<-|N].
      + rewrite nth_error_list_set_eq by auto. rewrite nth_error_app1 by (rewrite list_set_length; auto).
        now rewrite nth_error_list_set_eq.
      + rewrite nth_error_list_set_neq by auto. destruct (Nat.lt_ge_cases j (length p)).
        * rewrite !nth_error_app1 by (rewrite ?list_set_length; auto). now rewrite nth_error_list_set_neq.
        * rewrite (nth_error_app2 p) by auto. rewrite (nth_error_app2 (list_set p i x)) by (rewrite list_set_length; auto). now rewrite list_set_length.
    - exists p, (list_set q (i - length p - length l) x). split; [|reflexivity]. apply nth_error_ext. intros j.
      rewrite !app_length in L. destruct (Nat.eq_dec i j) as [<-|N].
      + rewrite nth_error_list_set_eq by (rewrite !app_length; lia). rewrite !nth_error_app2 by lia.
        now rewrite nth_error_list_set_eq by lia.
      + rewrite nth_error_list_set_neq by auto. destruct (Nat.lt_ge_cases j (length p)); [now rewrite !nth_error_app1|].
        do 2 rewrite (nth_error_app2 p) by auto. destruct (Nat.lt_ge_cases (j - length p) (length l)); [now rewrite !nth_error_app1|].
        do 2 rewrite (nth_error_app2 l) by auto. now rewrite nth_error_list_set_neq by lia.
  Qed.

  Lemma outside_bool : forall b n i, 0 <= i -> ((i <? Z.of_nat b) || (Z.of_nat (b + n) <=? i)) = true ->
    (Z.to_nat i < b \/ b + n <= Z.to_nat i)%nat.
  Proof. intros b n i Hi H. apply orb_true_iff in H. destruct H as [H|H]; [apply Z.ltb_lt in H|apply Z.leb_le in H]; lia. Qed.

  Lemma tracks_step : forall d xs c o xs' a d' c' a' w w' it sn, rep d xs c -> rep d' xs' c' -> dstep eqb xs o xs' a ->
    exec d o = Ret (d', a') -> after xs o w = Some w' -> tracks d xs c w it sn -> tracks d' xs' c' w' (seen o d d' it) sn.
  Proof.
    intros d xs c o xs' a d' c' a' w w' it sn R R' St E Af Tr.
    assert (Free : forall it', hdr it' = hdr it -> dpos it' = dpos it -> attached it' = false -> tracks d' xs' c' w' it' sn).
    { intros it' H1 H2 H3. destruct Tr as (Tr1 & Tr2 & Tr3). unfold tracks. rewrite H1, H2, H3. split; [auto|]. split; [auto|].
      assert (Hb : forall b n b' n', w = Inside b n -> w' = Inside b' n' -> n' = n).
      { intros b n b' n' -> ->. cbn [after] in Af. destruct o; try congruence.
        - destruct b; congruence.
        - destruct (_ <? _)%nat; congruence.
        - destruct (_ || _); congruence.
        - destruct (_ && _); congruence. }
      destruct w' as [b' n'| |]; [|discriminate|reflexivity]. split; [|discriminate].
      destruct w as [b n| |].
      - rewrite (Hb b n b' n' eq_refl eq_refl). now destruct Tr3.
      - cbn [after] in Af. destruct o; discriminate.
      - discriminate. }
    unfold seen. destruct (attached it) eqn:At; [|apply Free; auto].
    destruct (replaced o d d') eqn:Rp; [apply Free; auto|].
    destruct (exec_shape d xs c o xs' a d' c' a' R R' St E Rp) as (-> & Hd & Rd).
    destruct Tr as (Tr1 & Tr2 & Tr3). pose proof (rep_head _ _ _ R) as Hh. pose proof (rep_pos _ _ _ _ R) as P. pose proof (rep_pos _ _ _ _ R') as P'.
    destruct w as [b n| |]; [| |congruence].
    - destruct Tr3 as (-> & Tr3). specialize (Tr3 At). destruct Tr3 as (Bf & p & q & Ex & Lp & Hi).
      assert (Keep : forall xs1 b1 p1 q1, xs' = xs1 -> xs1 = p1 ++ fst sn ++ q1 -> length p1 = b1 ->
                ring c (Z.to_nat (head d)) b = ring c (Z.to_nat (head d')) b1 ->
                tracks d' xs' c (Inside b1 (length (fst sn))) (mkDIter (mkDeque (buffer d') (dlen (hdr it)) (head (hdr it))) true (dpos it)) sn).
      { intros xs1 b1 p1 q1 -> E1 L1 Hr. eapply tracks_inside; eauto. now rewrite <- Hr. }
      assert (Lx : length xs = (length p + (length (fst sn) + length q))%nat) by (rewrite Ex, !app_length; reflexivity).
      assert (Drop : buffer d' = buffer d ->
                tracks d' xs' c Shrunk (mkDIter (mkDeque (buffer d') (dlen (hdr it)) (head (hdr it))) true (dpos it)) sn).
      { intros Bd. unfold tracks. cbn [hdr dpos attached buffer]. rewrite Bd, <- Bf, hdr_eta. auto. }
      assert (Still : reading o = true -> o <> DequeSpec.PopFront -> xs' = xs -> w' = Inside b (length (fst sn)) ->
                tracks d' xs' c w' (mkDIter (mkDeque (buffer d') (dlen (hdr it)) (head (hdr it))) true (dpos it)) sn).
      { intros Hr No Hx ->. apply (Keep xs b p q); auto. rewrite Hd, Nat2Z.id. destruct o; try discriminate; try congruence; reflexivity. }
      inversion St; subst o; subst; cbn [after reading] in *; try (injection Af as <-); try (apply Still; auto; congruence).
      + (* PushFront *) apply (Keep (x :: p ++ fst sn ++ q) (S (length p)) (x :: p) q); auto.
        rewrite Hd, Nat2Z.id. cbn [length] in P'. apply ring_back; lia.
      + (* PushBack *) apply (Keep ((p ++ fst sn ++ q) ++ [x]) (length p) p (q ++ [x])); auto; [now rewrite <- !app_assoc|].
        rewrite Hd, Nat2Z.id. reflexivity.
      + (* PopFront, empty *) destruct p; [|discriminate]. injection Af as <-. apply Drop. auto.
      + (* PopFront *) destruct p as [|y p]; [injection Af as <-; apply Drop; auto|]. cbn [length app] in *. injection Af as <-.
        match goal with H : _ :: _ = _ :: _ |- _ => injection H as -> -> end.
        apply (Keep (p ++ fst sn ++ q) (length p) p q); auto. rewrite Hd, Nat2Z.id. cbn [length] in P. rewrite !app_length in P. symmetry. apply ring_on; lia.
      + (* PopBack, empty *) match goal with H : [] = p ++ fst sn ++ q |- _ => rewrite <- H in Af end.
        cbn [length] in Af. replace (length p + length (fst sn) <? 0)%nat with false in Af by (symmetry; apply Nat.ltb_ge; lia).
        injection Af as <-. apply Drop. auto.
      + (* PopBack *)
        match goal with H : ?l ++ [?x] = p ++ fst sn ++ q |- _ => rename H into Eq end.
        destruct (Nat.ltb_spec (length p + length (fst sn)) (length (p ++ fst sn ++ q))) as [L|L]; injection Af as <-; [|apply Drop; auto].
        destruct (exists_last (l := q)) as (q' & y & ->).
        { intros ->. rewrite !app_length in L. cbn [length] in L. lia. }
        rewrite !app_assoc in Eq. apply app_inj_tail in Eq. destruct Eq as [-> _].
        apply (Keep ((p ++ fst sn) ++ q') (length p) p q'); auto; [now rewrite app_assoc|]. rewrite Hd, Nat2Z.id. reflexivity.
      + (* Set_ *)
        destruct (_ || _) eqn:O; [|discriminate]. injection Af as <-. unfold inside in *.
        destruct (outside_set p (fst sn) q (Z.to_nat i) x) as (p1 & q1 & E1 & L1); [eapply outside_bool; [lia|exact O]|lia|].
        apply (Keep (p1 ++ fst sn ++ q1) (length p) p1 q1); auto; [|now rewrite Hd, Nat2Z.id].
        rewrite <- list_set_seq_set by lia. exact E1.
      + destruct (_ || _); [|discriminate]. injection Af as <-. apply (Keep (p ++ fst sn ++ q) (length p) p q); auto.
        now rewrite Hd, Nat2Z.id.
      + (* Swap *)
        destruct (_ && _) eqn:O; [|discriminate]. injection Af as <-. apply andb_true_iff in O. destruct O as [O1 O2].
        unfold inside in *.
        destruct (nth_error (p ++ fst sn ++ q) (Z.to_nat i)) as [x|] eqn:Ni; [|apply nth_error_None in Ni; lia].
        destruct (nth_error (p ++ fst sn ++ q) (Z.to_nat j)) as [y|] eqn:Nj; [|apply nth_error_None in Nj; lia].
        pose proof (list_set_exchanged _ _ _ _ _ Ni Nj) as Xc.
        match goal with H : exchanged _ xs' _ _ |- _ => pose proof (exchanged_unique _ _ _ _ _ Xc H) as Ex' end.
        destruct (outside_set p (fst sn) q (Z.to_nat i) y) as (p1 & q1 & E1 & L1); [eapply outside_bool; [lia|exact O1]|lia|].
        rewrite E1 in Ex'.
        assert (Lq : length (p1 ++ fst sn ++ q1) = length (p ++ fst sn ++ q)) by (rewrite <- E1; apply list_set_length).
        destruct (outside_set p1 (fst sn) q1 (Z.to_nat j) x) as (p2 & q2 & E2 & L2);
          [rewrite L1; eapply outside_bool; [lia|exact O2]|lia|].
        rewrite E2 in Ex'. apply (Keep (p2 ++ fst sn ++ q2) (length p) p2 q2); auto; [congruence|now rewrite Hd, Nat2Z.id].
      + discriminate Rp.
    - specialize (Tr3 At).
      assert (Drop : buffer d' = buffer d ->
                tracks d' xs' c Shrunk (mkDIter (mkDeque (buffer d') (dlen (hdr it)) (head (hdr it))) true (dpos it)) sn).
      { intros Bd. unfold tracks. cbn [hdr dpos attached buffer]. rewrite Bd, <- Tr3, hdr_eta. auto. }
      cbn [after] in Af. destruct o; try discriminate; injection Af as <-; try discriminate Rp; apply Drop; apply Rd; reflexivity.
  Qed.

  (** *** Programs *)
  Lemma tracks_next : forall d xs c w it e n, tracks d xs c w it (e, n) ->
    exists it', Next (mkIter (hdr it) (dpos it)) = Ret (mkIter (hdr it) it', nth_error e n) /\
      tracks d xs c w (mkDIter (hdr it) (attached it) it') (e, S n).
  Proof.
    intros d xs c w it e n ((c1 & R) & Hp & Hw). cbn [fst snd] in *. rewrite Hp.
    rewrite (Next_spec limit limit_ok _ _ _ _ R) by lia. eexists. split.
    - do 2 f_equal. destruct (Nat.lt_ge_cases n (length e)); [now rewrite Nat.min_l by lia|].
      rewrite Nat.min_r by lia. transitivity (@None T); [|symmetry]; apply nth_error_None; lia.
    - split; [eauto|]. split; [|exact Hw]. cbn [dpos fst snd].
      destruct (Nat.ltb_spec (Nat.min n (length e)) (length e)); f_equal; lia.
  Qed.
  Lemma tracks_iter : forall d xs c, rep d xs c -> tracks d xs c (Inside 0 (length xs)) (Deque_IntoIter d) (xs, 0%nat).
  Proof.
    intros d xs c R. split; [exists c; exact R|]. split; [reflexivity|]. split; [reflexivity|]. intros _.
    split; [reflexivity|]. exists [], []. cbn [fst app length]. rewrite app_nil_r. split; [reflexivity|]. split; [reflexivity|].
    cbn [hdr Deque_IntoIter]. destruct R as (b & h & -> & (Hh & _) & Lb & _). cbn [deq_of head]. rewrite Nat2Z.id. subst c. f_equal.
    ring_cases.
  Qed.

  Inductive All3 {A B C} (P : A -> B -> C -> Prop) : list A -> list B -> list C -> Prop :=
  | a3_nil : All3 P [] [] []
  | a3_cons : forall a b c la lb lc, P a b c -> All3 P la lb lc -> All3 P (a :: la) (b :: lb) (c :: lc).
  Lemma All3_snoc : forall A B C (P : A -> B -> C -> Prop) la lb lc a b c, All3 P la lb lc -> P a b c ->
    All3 P (la ++ [a]) (lb ++ [b]) (lc ++ [c]).
  Proof. intros A B C P la lb lc a b c H Q. induction H; cbn [app]; repeat constructor; auto. Qed.
  Lemma All3_next : forall A B C (P : A -> B -> C -> Prop) la lb lc k c, All3 P la lb lc -> nth_error lc k = Some c ->
    exists a b, nth_error la k = Some a /\ nth_error lb k = Some b /\ P a b c /\
      (forall b' c', P a b' c' -> All3 P la (list_set lb k b') (firstn k lc ++ c' :: skipn (S k) lc)).
  Proof.
    intros A B C P la lb lc k c H. revert k c. induction H as [|a b c0 la lb lc Q H IH]; intros k c N; [destruct k; discriminate|].
    destruct k as [|k]; cbn [nth_error] in N.
    - injection N as <-. exists a, b. split; [reflexivity|]. split; [reflexivity|]. split; [auto|]. intros b' c' Q'. constructor; auto.
    - destruct (IH k c N) as (a1 & b1 & N1 & N2 & Q1 & F). exists a1, b1. split; [auto|]. split; [auto|]. split; [auto|].
      intros b' c' Q'. cbn [list_set firstn skipn app]. constructor; auto.
  Qed.

  Lemma All3_map : forall A B C (P Q : A -> B -> C -> Prop) (R : A -> A -> Prop) (g : B -> B) la la' lb lc,
    (forall a a' b c, R a a' -> P a b c -> Q a' (g b) c) -> Forall2 R la la' -> All3 P la lb lc -> All3 Q la' (map g lb) lc.
  Proof.
    intros A B C P Q R g la la' lb lc H F A3. revert la' F. induction A3; intros la' F; inversion F; subst; cbn [map]; constructor; eauto.
  Qed.

  Lemma fold_le : forall (ops : list (DequeSpec.dop (T := T))) b, Forall (fun o => 0 <= cost o) ops -> b <= fold_left (fun b o => b + cost o) ops b.
  Proof.
    induction ops as [|o ops IH]; intros b F; cbn [fold_left]; [lia|]. inversion F; subst. specialize (IH (b + cost o) ltac:(auto)). lia.
  Qed.
  Lemma dideal_nonneg : forall l its prog ans, dideal eqb l its prog ans -> Forall (fun o => 0 <= cost o) (calls prog).
  Proof.
    induction 1; cbn [calls flat_map app]; auto. constructor; [eapply cost_nonneg; eauto|auto].
  Qed.

  Lemma calm_run : forall l its_s prog ans, dideal eqb l its_s prog ans -> forall ws d c its b, dcalm eqb l ws prog ->
    rep d l c -> All3 (tracks d l c) ws its its_s ->
    Z.of_nat c <= b -> 2 * Z.of_nat (length l) <= b -> 7 <= b -> fold_left (fun b o => b + cost o) (calls prog) b <= limit ->
    exists st, dirun zero limit eqb (d, its) prog = Ret (st, ans).
  Proof.
    induction 1 as [l its_s|l its_s o l' a r ans St Id IH|l its_s r ans Id IH|l its_s k e n r ans N Id IH];
      intros ws d c its b Ca R F Hc Hn Hb Sp; cbn [dirun diexec calls flat_map app fold_left] in *; inversion Ca; subst; clear Ca.
    - exists (d, its). reflexivity.
    - match goal with H : dstep eqb l o ?l2 ?a2 |- _ => destruct (dstep_det _ _ _ _ _ _ St H) as [<- <-]; clear H end.
      pose proof (cost_nonneg eqb _ _ _ _ St) as Cn.
      assert (Le : b + cost o <= limit).
      { eapply Z.le_trans; [|exact Sp]. apply fold_le. eapply dideal_nonneg; eauto. }
      destruct (exec_step zero limit limit_ok eqb d l c b o l' a R Hc Hn Hb St Le) as (d' & c' & E & R' & B1 & B2 & B3 & _).
      rewrite E. cbn [bind fst snd].
      destruct (IH ws' d' c' (map (seen o d d') its) (b + cost o)) as (st & Er); auto.
      + eapply All3_map; [|eassumption|exact F]. intros w w' it sn Af Tr. cbv beta in Af. eapply tracks_step; eauto.
      + rewrite Er. cbn [bind fst snd]. eauto.
    - destruct (IH (ws ++ [Inside 0 (length l)]) d c (its ++ [Deque_IntoIter d]) b) as (st & Er); auto.
      + apply All3_snoc; [auto|]. now apply tracks_iter.
      + cbn [bind fst snd]. rewrite Er. cbn [bind fst snd]. eauto.
    - destruct (All3_next _ _ _ _ _ _ _ _ _ F N) as (w & it & N1 & N2 & Tr & Up). rewrite N2. cbn [of_option bind].
      destruct (tracks_next _ _ _ _ _ _ _ Tr) as (p' & En & Tr'). rewrite En. cbn [bind fst snd position].
      destruct (IH ws d c (list_set its k (mkDIter (hdr it) (attached it) p')) b) as (st & Er); auto.
      rewrite Er. cbn [bind fst snd]. eauto.
  Qed.

  (** *** Any program: the number of elements *)
  Lemma some_rep : forall (b : list T) h n, (h < length b)%nat -> (n <= length b)%nat -> Z.of_nat (length b) <= limit ->
    exists l, length l = n /\ rep (mkDeque b (Z.of_nat n) (Z.of_nat h)) l (length b).
  Proof.
    intros b h n Hh Hn Hl. exists (map (fun i => nth (ring (length b) h i) b zero) (seq 0 n)).
    assert (L : length (map (fun i => nth (ring (length b) h i) b zero) (seq 0 n)) = n) by now rewrite map_length, seq_length.
    split; [exact L|]. exists b, h. unfold deq_of. rewrite L. split; [reflexivity|]. split; [|auto].
    split; [auto|]. rewrite L. split; [auto|]. intros i Hi.
    rewrite nth_error_map, (nth_error_nth' _ 0%nat) by now rewrite seq_length. rewrite seq_nth by auto. cbn [option_map Nat.add].
    apply nth_error_nth'. apply ring_lt; lia.
  Qed.

  Definition counts (c : nat) (it : diter) (sn : list T * nat) : Prop :=
    (exists c1 l1, rep (hdr it) l1 c1 /\ length l1 = length (fst sn) /\ (attached it = true -> c1 = c)) /\
    dpos it = Z.of_nat (Nat.min (snd sn) (length (fst sn))).

  Lemma counts_seen : forall d xs c o d' xs' c' it sn, rep d xs c -> rep d' xs' c' ->
    counts c it sn -> counts c' (seen o d d' it) sn.
  Proof.
    intros d xs c o d' xs' c' it sn R R' ((c1 & l1 & R1 & L1 & H1) & Hp). unfold seen. destruct (attached it) eqn:At.
    2:{ split; [|exact Hp]. exists c1, l1. split; [auto|]. split; [auto|]. congruence. }
    destruct (replaced o d d') eqn:Rp.
    - split; [|exact Hp]. exists c1, l1. split; [auto|]. split; [auto|]. discriminate.
    - specialize (H1 eq_refl). subst c1.
      assert (c' = c) as ->.
      { unfold replaced in Rp. rewrite (rep_cap _ _ _ _ R), (rep_cap _ _ _ _ R') in Rp.
        destruct o; try discriminate; apply negb_false_iff, Z.eqb_eq in Rp; lia. }
      destruct R1 as (b & h & Eh & (Hh & Hl & _) & Lb & _). destruct R' as (b' & h' & -> & _ & Lb' & HL).
      cbn [deq_of buffer]. rewrite Eh. cbn [deq_of dlen head].
      destruct (some_rep b' h (length l1)) as (l2 & L2 & R2); [lia|lia|lia|].
      split; [|exact Hp]. exists c, l2. split; [now rewrite Lb' in R2|]. split; [congruence|auto].
  Qed.
  Lemma counts_next : forall c it e n, counts c it (e, n) ->
    exists p' v, Next (mkIter (hdr it) (dpos it)) = Ret (mkIter (hdr it) p', v) /\ (v = None <-> nth_error e n = None) /\
      counts c (mkDIter (hdr it) (attached it) p') (e, S n).
  Proof.
    intros c it e n ((c1 & l1 & R1 & L1 & H1) & Hp). cbn [fst snd] in *. rewrite Hp.
    rewrite (Next_spec limit limit_ok _ _ _ _ R1) by lia. eexists _, _. split; [reflexivity|]. split.
    - rewrite !nth_error_None. lia.
    - split; [exists c1, l1; auto|]. cbn [dpos fst snd].
      destruct (Nat.ltb_spec (Nat.min n (length e)) (length l1)); f_equal; lia.
  Qed.

  Lemma Forall2_next : forall A B (P : A -> B -> Prop) la lb k b, Forall2 P la lb -> nth_error lb k = Some b ->
    exists a, nth_error la k = Some a /\ P a b /\
      (forall a' b', P a' b' -> Forall2 P (list_set la k a') (firstn k lb ++ b' :: skipn (S k) lb)).
  Proof.
    intros A B P la lb k b H. revert k b. induction H as [|a0 b0 la lb Q H IH]; intros k b N; [destruct k; discriminate|].
    destruct k as [|k]; cbn [nth_error] in N.
    - injection N as <-. exists a0. split; [reflexivity|]. split; [auto|]. intros a' b' Q'. constructor; auto.
    - destruct (IH k b N) as (a1 & N1 & Q1 & F). exists a1. split; [auto|]. split; [auto|].
      intros a' b' Q'. cbn [list_set firstn skipn app]. constructor; auto.
  Qed.
  Lemma Forall2_map1 : forall A B (P Q : A -> B -> Prop) (g : A -> A) la lb, (forall a b, P a b -> Q (g a) b) ->
    Forall2 P la lb -> Forall2 Q (map g la) lb.
  Proof. intros A B P Q g la lb H F. induction F; cbn [map]; constructor; auto. Qed.

  Lemma any_run : forall l its_s prog ans, dideal eqb l its_s prog ans -> forall d c its b,
    rep d l c -> Forall2 (counts c) its its_s ->
    Z.of_nat c <= b -> 2 * Z.of_nat (length l) <= b -> 7 <= b -> fold_left (fun b o => b + cost o) (calls prog) b <= limit ->
    exists st ans', dirun zero limit eqb (d, its) prog = Ret (st, ans') /\ dalike prog ans' ans.
  Proof.
    induction 1 as [l its_s|l its_s o l' a r ans St Id IH|l its_s r ans Id IH|l its_s k e n r ans N Id IH];
      intros d c its b R F Hc Hn Hb Sp; cbn [dirun diexec calls flat_map app fold_left] in *.
    - exists (d, its), []. split; [reflexivity|exact I].
    - pose proof (cost_nonneg eqb _ _ _ _ St) as Cn.
      assert (Le : b + cost o <= limit).
      { eapply Z.le_trans; [|exact Sp]. apply fold_le. eapply dideal_nonneg; eauto. }
      destruct (exec_step zero limit limit_ok eqb d l c b o l' a R Hc Hn Hb St Le) as (d' & c' & E & R' & B1 & B2 & B3 & _).
      rewrite E. cbn [bind fst snd].
      destruct (IH d' c' (map (seen o d d') its) (b + cost o)) as (st & ans' & Er & Al); auto.
      + eapply Forall2_map1; [|exact F]. intros it sn Q. eapply counts_seen; eauto.
      + rewrite Er. cbn [bind fst snd]. eexists _, _. split; [reflexivity|]. cbn [dalike]. auto.
    - destruct (IH d c (its ++ [Deque_IntoIter d]) b) as (st & ans' & Er & Al); auto.
      + apply Forall2_app; [auto|]. constructor; [|constructor]. split; [|reflexivity]. exists c, l. auto.
      + cbn [bind fst snd]. rewrite Er. cbn [bind fst snd]. eexists _, _. split; [reflexivity|]. cbn [dalike]. auto.
    - destruct (Forall2_next _ _ _ _ _ _ _ F N) as (it & N2 & Tr & Up). rewrite N2. cbn [of_option bind].
      destruct (counts_next _ _ _ _ Tr) as (p' & v & En & Hv & Tr'). rewrite En. cbn [bind fst snd position].
      destruct (IH d c (list_set its k (mkDIter (hdr it) (attached it) p')) b) as (st & ans' & Er & Al); auto.
      rewrite Er. cbn [bind fst snd]. eexists _, _. split; [reflexivity|]. cbn [dalike]. auto.
  Qed.

  (** *** Iterators as places *)
  Definition reads (d : VecDeque T) (l : list T) (watched : bool) (it : diter) (n : nat) : Prop :=
    watched = true /\ hdr it = d /\ attached it = true /\ dpos it = Z.of_nat (Nat.min n (length l)).
  Lemma steady_step : forall d l c o l' a d' c', rep d l c -> rep d' l' c' -> dstep eqb l o l' a -> exec d o = Ret (d', a) ->
    dresizes o = false -> length l' = length l /\ replaced o d d' = false /\ head d' = head d.
  Proof.
    intros d l c o l' a d' c' R R' St E Nr.
    assert (Lq : length l' = length l).
    { inversion St; subst; try discriminate Nr; auto.
      - unfold inside in *. rewrite <- list_set_seq_set by lia. apply list_set_length.
      - match goal with H : exchanged _ _ _ _ |- _ => destruct H as (H & _); exact H end.
      - apply map_length. }
    assert (Rp : replaced o d d' = false).
    { assert (Cq : Capacity d' = Capacity d).
      { destruct o; try discriminate Nr; cbn [DequeHistory.exec] in E; apply bind_Ret in E || (injection E as <- _; reflexivity);
          destruct E as (q & E & Q); injection Q as <- _; try reflexivity.
        - unfold Set_ in E. destruct (Len d <=? i); [injection E as <-; reflexivity|].
          apply bind_Ret in E. destruct E as (v & Ev & E). injection E as <-. unfold Capacity. cbn [fst buffer].
          unfold bupd in Ev. destruct (_ && _) eqn:O; [|discriminate]. unfold upd in Ev. destruct (_ <? _)%nat; [|discriminate].
          injection Ev as <-. now rewrite list_set_length.
        - assert (Hij : inside l i /\ inside l j) by (inversion St; auto). destruct Hij as [Hi Hj]. unfold inside in *.
          destruct (nth_error l (Z.to_nat i)) as [x|] eqn:Ni; [|apply nth_error_None in Ni; lia].
          destruct (nth_error l (Z.to_nat j)) as [y|] eqn:Nj; [|apply nth_error_None in Nj; lia].
          destruct (Swap_spec limit limit_ok d l c _ _ _ _ R Ni Nj) as (d1 & E1 & R1). rewrite !Z2Nat.id in E1 by lia.
          rewrite E in E1. injection E1 as <-. now rewrite (rep_cap _ _ _ _ R), (rep_cap _ _ _ _ R1).
        - destruct (Fill_spec limit limit_ok d l c x R) as (d1 & E1 & R1 & _). rewrite E in E1. injection E1 as <-.
          now rewrite (rep_cap _ _ _ _ R), (rep_cap _ _ _ _ R1). }
      unfold replaced. rewrite Cq, Z.eqb_refl. destruct o; try discriminate Nr; reflexivity. }
    split; [exact Lq|]. split; [exact Rp|].
    destruct (exec_shape d l c o l' a d' c' a R R' St E Rp) as (_ & H & _). rewrite H.
    destruct R as (b & h & -> & _). cbn [deq_of head]. rewrite Nat2Z.id. destruct o; try discriminate Nr; reflexivity.
  Qed.

  Lemma dlive_nonneg : forall l its prog ans, dlive eqb l its prog ans -> Forall (fun o => 0 <= cost o) (calls prog).
  Proof.
    induction 1; cbn [calls flat_map app]; auto. constructor; [eapply cost_nonneg; eauto|auto].
  Qed.
  Lemma steady_run : forall l ps prog ans, dlive eqb l ps prog ans -> forall d c its b watched,
    rep d l c -> Forall2 (reads d l watched) its ps -> dsteady watched prog = true ->
    Z.of_nat c <= b -> 2 * Z.of_nat (length l) <= b -> 7 <= b -> fold_left (fun b o => b + cost o) (calls prog) b <= limit ->
    exists st, dirun zero limit eqb (d, its) prog = Ret (st, ans).
  Proof.
    induction 1 as [l ps|l ps o l' a r ans St Id IH|l ps r ans Id IH|l ps k n r ans N Id IH];
      intros d c its b watched R F Q Hc Hn Hb Sp; cbn [dirun diexec calls flat_map app fold_left dsteady] in *.
    - exists (d, its). reflexivity.
    - pose proof (cost_nonneg eqb _ _ _ _ St) as Cn. apply andb_true_iff in Q. destruct Q as [Q1 Q2].
      assert (Le : b + cost o <= limit).
      { eapply Z.le_trans; [|exact Sp]. apply fold_le. eapply dlive_nonneg; eauto. }
      destruct (exec_step zero limit limit_ok eqb d l c b o l' a R Hc Hn Hb St Le) as (d' & c' & E & R' & B1 & B2 & B3 & _).
      rewrite E. cbn [bind fst snd].
      destruct (IH d' c' (map (seen o d d') its) (b + cost o) watched) as (st & Er); auto.
      + eapply Forall2_map1; [|exact F]. intros it p (W & Hh & At & Hp). subst watched. cbn [andb] in Q1.
        apply negb_true_iff in Q1. destruct (steady_step d l c o l' a d' c' R R' St E Q1) as (Lq & Rp & Hd).
        unfold seen. rewrite At, Rp. split; [reflexivity|]. cbn [hdr attached dpos]. rewrite Hh, Lq. split; [|auto].
        rewrite (rep_len _ _ _ _ R), <- Lq, <- (rep_len _ _ _ _ R'), <- Hd. apply hdr_eta.
      + rewrite Er. cbn [bind fst snd]. eauto.
    - destruct (IH d c (its ++ [Deque_IntoIter d]) b true) as (st & Er); auto.
      + apply Forall2_app.
        * rewrite <- (map_id its). eapply Forall2_map1; [|exact F]. intros it p (_ & H). split; [reflexivity|exact H].
        * constructor; [|constructor]. repeat split.
      + cbn [bind fst snd]. rewrite Er. cbn [bind fst snd]. eauto.
    - destruct (Forall2_next _ _ _ _ _ _ _ F N) as (it & N2 & (W & Hh & At & Hp) & Up). rewrite N2. cbn [of_option bind].
      rewrite Hp, Hh. rewrite (Next_spec limit limit_ok _ _ _ _ R) by lia. cbn [bind fst snd position].
      destruct (IH d c (list_set its k (mkDIter d (attached it)
        (Z.of_nat (if (Nat.min n (length l) <? length l)%nat then S (Nat.min n (length l)) else Nat.min n (length l))))) b watched) as (st & Er); auto.
      + apply Up. split; [auto|]. cbn [hdr attached dpos]. split; [auto|]. split; [auto|].
        destruct (Nat.ltb_spec (Nat.min n (length l)) (length l)); f_equal; lia.
      + rewrite Er. cbn [bind fst snd]. eexists. do 4 f_equal.
        destruct (Nat.lt_ge_cases n (length l)); [now rewrite Nat.min_l by lia|].
        rewrite Nat.min_r by lia. transitivity (@None T); [|symmetry]; apply nth_error_None; lia.
  Qed.

  (** *** A full deque that loses its first element and gets a new last one *)
  Lemma overwrite : forall d x xs y, rep d (x :: xs) (length (x :: xs)) ->
    exists d1 d2, PopFront d = Ret (d1, Some x) /\ PushBack zero limit d1 y = Ret d2 /\
      let it := seen (DequeSpec.PushBack y) d1 d2 (seen DequeSpec.PopFront d d1 (Deque_IntoIter d)) in
      Next (mkIter (hdr it) (dpos it)) = Ret (mkIter (hdr it) 1, Some y).
  Proof.
    intros d x xs y R. destruct (PopFront_cons _ limit_ok _ _ _ _ R) as (d1 & E1 & R1).
    pose proof (rep_pos _ _ _ _ R) as P. cbn [length] in *.
    assert (Rm : roomier (length xs) (S (length xs)) = S (length xs)).
    { unfold roomier. destruct (Nat.eqb_spec (length xs) (S (length xs))); [lia|reflexivity]. }
    destruct (PushBack_spec zero limit limit_ok d1 xs (S (length xs)) y R1) as (d2 & E2 & R2); [rewrite Rm; lia|].
    rewrite Rm in R2. exists d1, d2. split; [exact E1|]. split; [exact E2|].
    pose proof (rep_cap _ _ _ _ R) as C. pose proof (rep_cap _ _ _ _ R1) as C1. pose proof (rep_cap _ _ _ _ R2) as C2.
    unfold seen, replaced. rewrite C, C1, C2, Z.eqb_refl. cbn [negb attached hdr Deque_IntoIter dpos dlen head].
    rewrite (rep_len _ _ _ _ R). cbn [length].
    destruct (exec_shape d (x :: xs) (S (length xs)) DequeSpec.PopFront xs (DequeSpec.Value (Some x)) d1 (S (length xs)) (DequeSpec.Value (Some x)))
      as (_ & H1 & _); auto; [constructor|cbn [DequeHistory.exec]; now rewrite E1|unfold replaced; now rewrite C, C1, Z.eqb_refl|].
    destruct (exec_shape d1 xs (S (length xs)) (DequeSpec.PushBack y) (xs ++ [y]) DequeSpec.Done d2 (S (length xs)) DequeSpec.Done)
      as (_ & H2 & _); auto; [constructor|cbn [DequeHistory.exec]; now rewrite E2|unfold replaced; now rewrite C1, C2, Z.eqb_refl|].
    cbn [shift] in H1, H2.
    destruct R2 as (b2 & h2 & Ed2 & (Hh2 & Hl2 & Hn2) & Lb2 & _). destruct R as (b & h & Ed & (Hh & _) & Lb & Hl).
    assert (Hd : h2 = ring (S (length xs)) h 1).
    { rewrite Ed2, H1, Ed in H2. cbn [deq_of head] in H2. rewrite !Nat2Z.id in H2. lia. }
    assert (N : nth_error b2 h = Some y).
    { specialize (Hn2 (length xs)). rewrite app_length in Hn2. cbn [length] in Hn2. rewrite Lb2 in Hn2.
      replace (ring (S (length xs)) h2 (length xs)) with h in Hn2 by (subst h2; ring_cases).
      rewrite Hn2 by lia. rewrite nth_error_app2, Nat.sub_diag by lia. reflexivity. }
    rewrite Ed2, Ed. cbn [deq_of buffer head].
    unfold Next, Len. cbn [deque position dlen]. destruct (Z.leb_spec (Z.of_nat (S (length xs))) 0); [lia|].
    unfold Get, Len. cbn [dlen]. destruct (Z.leb_spec (Z.of_nat (S (length xs))) 0); [lia|].
    change (mkDeque b2 (Z.of_nat (S (length xs))) (Z.of_nat h)) with (deq_of b2 h (x :: xs)).
    change 0 with (Z.of_nat 0) at 1. rewrite (phys limit limit_ok) by lia.
    replace (ring (length b2) h 0) with h by ring_cases. cbn [deq_of buffer]. rewrite bidx_nat. unfold idx. rewrite N. reflexivity.
  Qed.

  (** *** From the constructors *)
  Lemma ideal_history : forall l its prog ans, dideal eqb l its prog ans -> exists l' ans', DequeSpec.dhistory eqb l (calls prog) l' ans'.
  Proof.
    induction 1 as [l its|l its o l' a r ans St Id IH|l its r ans Id IH|l its k e n r ans N Id IH]; unfold calls in *; cbn [flat_map app]; auto.
    - exists l, []. constructor.
    - destruct IH as (l2 & ans2 & H). exists l2, (a :: ans2). econstructor; eauto.
  Qed.
  Lemma live_history : forall l its prog ans, dlive eqb l its prog ans -> exists l' ans', DequeSpec.dhistory eqb l (calls prog) l' ans'.
  Proof.
    induction 1 as [l its|l its o l' a r ans St Id IH|l its r ans Id IH|l its k n r ans N Id IH]; unfold calls in *; cbn [flat_map app]; auto.
    - exists l, []. constructor.
    - destruct IH as (l2 & ans2 & H). exists l2, (a :: ans2). econstructor; eauto.
  Qed.
  Lemma makes_start : forall m l n ops l' ans', makes zero limit m l n -> DequeSpec.dhistory eqb l ops l' ans' -> DequeSpec.space n ops <= limit ->
    exists d c, m = Ret d /\ rep d l c /\ Z.of_nat c <= 7 + 2 * n /\ 2 * Z.of_nat (length l) <= 7 + 2 * n /\ 7 <= 7 + 2 * n /\
      fold_left (fun b o => b + cost o) ops (7 + 2 * n) <= limit.
  Proof.
    intros m l n ops l' ans' Mk H HL. unfold DequeSpec.space in HL.
    pose proof (fold_cost _ _ _ _ _ (7 + 2 * n) H) as F.
    destruct (makes_rep zero limit limit_ok m l n Mk) as (d & c & -> & R & A1 & A2 & A3 & A4); [lia|].
    exists d, c. repeat split; auto. lia.
  Qed.
End Deque.
