(** DecimalProofs.v -- proofs about decimal text. *)
From Verif Require Import Base IntModel IntSpec IntProofs DecimalModel DecimalSpec.
Local Open Scope Z_scope.
Local Open Scope bool_scope.

Lemma value_of_snoc s c : value_of (s ++ [c]) = 10 * value_of s + (c - 48).
Proof. unfold value_of. rewrite fold_left_app. reflexivity. Qed.

Lemma digits_value_spec s : forall acc,
  digits_value acc s = fold_left (fun acc c => 10 * acc + (c - 48)) s acc.
Proof. induction s; intros; simpl; auto. Qed.

Lemma value_of_nonneg s : Forall digit_char s -> 0 <= value_of s.
Proof.
  induction s using rev_ind; intros H. { unfold value_of; cbn [fold_left]; lia. }
  rewrite value_of_snoc. apply Forall_app in H as [H1 H2]. inversion H2; subst.
  unfold digit_char in *. specialize (IHs H1). lia.
Qed.

Lemma digits_go_spec k : forall n acc, 0 <= n < 10 ^ Z.of_nat (S k) ->
  exists d, digits_go (S k) n acc = d ++ acc /\ canonical_nat d n.
Proof.
  induction k; intros n acc H.
  - change (10 ^ Z.of_nat 1) with 10 in H. cbn [digits_go].
    destruct (Z.ltb_spec n 10); [|lia].
    exists [48 + n]. split; auto. split; [discriminate|]. split.
    + constructor; auto. unfold digit_char; lia.
    + split. { intros r E. injection E; auto. } unfold value_of; cbn [fold_left]; lia.
  - cbn [digits_go]. destruct (Z.ltb_spec n 10).
    + exists [48 + n]. split; auto. split; [discriminate|]. split.
      * constructor; auto. unfold digit_char; lia.
      * split. { intros r E. injection E; auto. } unfold value_of; cbn [fold_left]; lia.
    + rewrite Nat2Z.inj_succ, Z.pow_succ_r in H by lia.
      pose proof (Z.mod_pos_bound n 10 ltac:(lia)). pose proof (Z.div_mod n 10 ltac:(lia)).
      destruct (IHk (n / 10) ((48 + n mod 10) :: acc)) as (d & E & Hd).
      { split. apply Z.div_pos; lia. apply Z.div_lt_upper_bound; lia. }
      cbn [digits_go] in E. rewrite E.
      exists (d ++ [48 + n mod 10]). split. { now rewrite <- app_assoc. }
      destruct Hd as (D1 & D2 & D3 & D4).
      split. { destruct d; discriminate. }
      split. { apply Forall_app. split; auto. constructor; auto. unfold digit_char; lia. }
      split.
      * intros r Er. destruct d as [|x d']; [congruence|]. injection Er as -> Er.
        rewrite (D3 d' eq_refl) in D4. unfold value_of in D4; cbn [fold_left] in D4. lia.
      * rewrite value_of_snoc, D4. lia.
Qed.

Lemma digits_spec n : 0 <= n -> canonical_nat (digits n) n.
Proof.
  intros H. unfold digits.
  destruct (digits_go_spec (Z.to_nat (Z.log2 n)) n []) as (d & E & Hd).
  - split; auto. destruct (Z.eq_dec n 0) as [->|Hn]. { apply Z.pow_pos_nonneg; lia. }
    pose proof (Z.log2_spec n ltac:(lia)) as [_ HL].
    eapply Z.lt_le_trans; [exact HL|].
    replace (Z.succ (Z.log2 n)) with (Z.of_nat (S (Z.to_nat (Z.log2 n)))).
    + apply Z.pow_le_mono_l. lia.
    + pose proof (Z.log2_nonneg n). lia.
  - rewrite E, app_nil_r. exact Hd.
Qed.

Lemma Itoa_canonical z : canonical (Itoa z) z.
Proof.
  unfold Itoa, canonical. destruct (Z.ltb_spec z 0).
  - right. split; auto. exists (digits (- z)). split; auto. apply digits_spec; lia.
  - left. split; auto. apply digits_spec; lia.
Qed.

(** The canonical numeral is unique. *)
Lemma value_of_cons c s : value_of (c :: s) = (c - 48) * 10 ^ Z.of_nat (length s) + value_of s.
Proof.
  unfold value_of. cbn [fold_left].
  assert (forall l a, fold_left (fun acc c => 10 * acc + (c - 48)) l a
            = a * 10 ^ Z.of_nat (length l) + fold_left (fun acc c => 10 * acc + (c - 48)) l 0) as H.
  { induction l as [|x l IHl]; intros a; [cbn [fold_left length]; change (10 ^ Z.of_nat 0) with 1; lia|]. cbn [fold_left length].
    rewrite (IHl (10 * a + (x - 48))), (IHl (10 * 0 + (x - 48))).
    rewrite Nat2Z.inj_succ, Z.pow_succ_r by lia. lia. }
  rewrite H. lia.
Qed.

Lemma value_of_bound s : Forall digit_char s -> value_of s < 10 ^ Z.of_nat (length s).
Proof.
  induction s; intros H. { unfold value_of; cbn [fold_left]; lia. }
  inversion H; subst. rewrite value_of_cons. cbn [length].
  rewrite Nat2Z.inj_succ, Z.pow_succ_r by lia. specialize (IHs H3).
  unfold digit_char in *. nia.
Qed.

Lemma value_of_inj s1 : forall s2, Forall digit_char s1 -> Forall digit_char s2 ->
  length s1 = length s2 -> value_of s1 = value_of s2 -> s1 = s2.
Proof.
  induction s1; intros s2 H1 H2 L E; destruct s2; try discriminate; auto.
  inversion H1; inversion H2; subst. injection L as L.
  rewrite !value_of_cons, L in E.
  pose proof (value_of_bound _ H4). pose proof (value_of_bound _ H8).
  pose proof (value_of_nonneg _ H4). pose proof (value_of_nonneg _ H8).
  rewrite L in H.
  assert (a = z) by nia. subst. f_equal. apply IHs1; auto. lia.
Qed.

Lemma canonical_nat_unique s1 s2 n : canonical_nat s1 n -> canonical_nat s2 n -> s1 = s2.
Proof.
  assert (forall s1 s2, canonical_nat s1 n -> canonical_nat s2 n -> (length s1 < length s2)%nat -> False) as HL.
  { intros t1 t2 (A1 & A2 & A3 & A4) (B1 & B2 & B3 & B4) L.
    destruct t2 as [|c t2]; [congruence|].
    assert (c <> 48).
    { intros ->. rewrite (B3 t2 eq_refl) in L. simpl in L. destruct t1; [congruence|simpl in L; lia]. }
    inversion B2; subst. rewrite value_of_cons in B4.
    pose proof (value_of_bound _ A2). pose proof (value_of_nonneg _ H3).
    unfold digit_char in *.
    assert (10 ^ Z.of_nat (length t1) <= 10 ^ Z.of_nat (length t2)).
    { apply Z.pow_le_mono_r; simpl in L; lia. }
    pose proof (Z.pow_pos_nonneg 10 (Z.of_nat (length t2))). nia. }
  intros H1 H2. destruct (Nat.lt_trichotomy (length s1) (length s2)) as [?|[?|?]].
  - exfalso; eauto.
  - destruct H1 as (A1 & A2 & A3 & A4), H2 as (B1 & B2 & B3 & B4). apply value_of_inj; auto. lia.
  - exfalso; eauto.
Qed.

Lemma canonical_unique s1 s2 z : canonical s1 z -> canonical s2 z -> s1 = s2.
Proof.
  intros [[H1 C1]|[H1 (t1 & -> & C1)]] [[H2 C2]|[H2 (t2 & -> & C2)]]; try lia.
  - eapply canonical_nat_unique; eauto.
  - f_equal. eapply canonical_nat_unique; eauto.
Qed.

(** Canonical numerals of different numbers differ. *)
Lemma canonical_functional s z1 z2 : canonical s z1 -> canonical s z2 -> z1 = z2.
Proof.
  intros [[H1 (A1 & A2 & A3 & A4)]|[H1 (t1 & -> & (A1 & A2 & A3 & A4))]]
         [[H2 (B1 & B2 & B3 & B4)]|[H2 (t2 & E & (B1 & B2 & B3 & B4))]].
  - lia.
  - subst s. inversion A2; subst. unfold digit_char in *; lia.
  - inversion B2; subst. unfold digit_char in *; lia.
  - injection E as ->. lia.
Qed.

(** *** Parsing *)
Lemma is_digit_spec c : is_digit c = true <-> digit_char c.
Proof. unfold is_digit, digit_char. rewrite andb_true_iff, !Z.leb_le. tauto. Qed.
Lemma forallb_digits s : forallb is_digit s = true <-> Forall digit_char s.
Proof. rewrite forallb_forall, Forall_forall. split; intros H x Hx; apply is_digit_spec; auto. Qed.

Lemma parse_decimal_sign s :
  parse_decimal s =
    match (match s with
           | c :: r => if c =? 45 then (true, r) else if c =? 43 then (false, r) else (false, s)
           | [] => (false, s) end) with
    | (neg, body) =>
      match body with
      | [] => None
      | _ => if forallb is_digit body
             then Some (if neg then - digits_value 0 body else digits_value 0 body) else None
      end
    end.
Proof.
  unfold parse_decimal. destruct s as [|c r]; auto.
  destruct (Z.eqb_spec c 45) as [->|H45]; auto.
  destruct (Z.eqb_spec c 43) as [->|H43]; auto.
  assert (match c with 45 => (true, r) | 43 => (false, r) | _ => (false, c :: r) end = (false, c :: r)) as ->; auto.
  destruct c as [|p|p]; auto.
  do 6 (destruct p as [p|p|]; auto); congruence.
Qed.

Lemma parse_decimal_spec s z : parse_decimal s = Some z <-> decimal_text s z.
Proof.
  rewrite parse_decimal_sign. unfold decimal_text.
  assert (forall body neg, match body with
      | [] => None
      | _ => if forallb is_digit body
             then Some (if neg : bool then - digits_value 0 body else digits_value 0 body) else None
      end = Some z <-> body <> [] /\ Forall digit_char body /\ z = if neg then - value_of body else value_of body) as HB.
  { intros body neg. unfold value_of. rewrite <- digits_value_spec, <- forallb_digits.
    destruct body. { split; [discriminate|]. intros (H & _); congruence. }
    destruct (forallb is_digit (z0 :: body)).
    - split. + intros H; injection H as <-. repeat split; auto. discriminate.
      + intros (_ & _ & ->). reflexivity.
    - split; [discriminate|]. intros (_ & H & _); discriminate. }
  destruct s as [|c r].
  - split; [discriminate|]. intros (body & H1 & H2 & [[E _]|[[E _]|[E _]]]); congruence.
  - destruct (Z.eqb_spec c 45) as [->|H45]; [|destruct (Z.eqb_spec c 43) as [->|H43]];
      [etransitivity; [apply (HB r true)|] | etransitivity; [apply (HB r false)|]
      | etransitivity; [apply (HB (c :: r) false)|] ].
    + split.
      * intros (H1 & H2 & H3). exists r. auto 6.
      * intros (body & H1 & H2 & [[E Ez]|[[E Ez]|[E Ez]]]).
        -- subst body. inversion H2; subst. unfold digit_char in *; lia.
        -- discriminate.
        -- injection E as ->. auto.
    + split.
      * intros (H1 & H2 & H3). exists r. auto 6.
      * intros (body & H1 & H2 & [[E Ez]|[[E Ez]|[E Ez]]]).
        -- subst body. inversion H2; subst. unfold digit_char in *; lia.
        -- injection E as ->. auto.
        -- discriminate.
    + split.
      * intros (H1 & H2 & H3). exists (c :: r). auto 6.
      * intros (body & H1 & H2 & [[E Ez]|[[E Ez]|[E Ez]]]); try congruence.
        subst body. auto.
Qed.

Lemma canonical_decimal_text s z : canonical s z -> decimal_text s z.
Proof.
  intros [[H1 (A1 & A2 & A3 & A4)]|[H1 (t1 & -> & (A1 & A2 & A3 & A4))]].
  - exists s. auto.
  - exists t1. repeat split; auto. right; right. split; auto. lia.
Qed.

Lemma parse_Itoa z : parse_decimal (Itoa z) = Some z.
Proof. apply parse_decimal_spec, canonical_decimal_text, Itoa_canonical. Qed.

Lemma Atoi_spec s z : Atoi s = Some z <-> decimal_text s z /\ in_range I64 z.
Proof.
  unfold Atoi. rewrite <- parse_decimal_spec. destruct (parse_decimal s) as [y|].
  - rewrite MIN_lowest, MAX_highest. unfold in_range.
    destruct (Z.leb_spec (lowest I64) y), (Z.leb_spec y (highest I64)); cbn [andb]; split; intros HH;
      try discriminate; try (injection HH as <-; auto); try (destruct HH as [HH ?]; injection HH as <-; lia).
    destruct HH as [HH _]; auto.
  - split; [discriminate|intros [? _]; discriminate].
Qed.

Lemma ParseI64_spec s z : ParseI64 s = Some z <-> decimal_text s z /\ in_range I64 z.
Proof.
  unfold ParseI64. rewrite <- Atoi_spec. destruct (Atoi s) as [y|] eqn:E.
  - apply Atoi_spec in E as [_ E]. rewrite wrap_id; auto. tauto.
  - split; discriminate.
Qed.

Lemma ParseU64_spec s z :
  ParseU64 s = Some z <-> exists y, decimal_text s y /\ in_range I64 y /\ wraps_to U64 y z.
Proof.
  unfold ParseU64. destruct (Atoi s) as [y|] eqn:E.
  - pose proof E as E0. apply Atoi_spec in E as [E1 E2]. split.
    + intros H; injection H as <-. exists y. split; [auto|]. split; [auto|]. apply wrap_wraps.
    + intros (y' & H1 & H2 & H3).
      assert (Atoi s = Some y') as E' by now apply Atoi_spec.
      rewrite E0 in E'. injection E' as ->. f_equal. now apply wrap_unique.
  - split; [discriminate|]. intros (y' & H1 & H2 & H3).
    assert (Atoi s = Some y') as E' by now apply Atoi_spec. congruence.
Qed.

Lemma ToString_canonical t x : in_range t x -> (t = USize -> x <= highest I64) -> canonical (ToString t x) x.
Proof.
  intros H HU. destruct t; unfold ToString;
  try (rewrite wrap_id; [apply Itoa_canonical|unfold in_range in *; cbn [lowest highest] in *; lia]).
  - rewrite wrap_id; [apply Itoa_canonical|]. specialize (HU eq_refl). unfold in_range in *; cbn [lowest highest] in *; lia.
  - unfold FormatUint. left. unfold in_range in H; cbn in H. split; [lia|]. apply digits_spec; lia.
Qed.

Lemma ToString_USize_big x : highest I64 < x <= highest USize ->
  canonical (ToString USize x) (x - 2 ^ 64).
Proof.
  intros H. unfold ToString. replace (wrap I64 x) with (x - 2 ^ 64). apply Itoa_canonical.
  symmetry. apply wrap_unique. cbn in H. split.
  - unfold in_range; cbn; lia.
  - exists 1. unfold modulus; cbn; lia.
Qed.
