(** Int128Proofs.v -- proofs about U128 and I128. *)
From Verif Require Import Base IntModel IntSpec IntProofs DecimalModel DecimalSpec DecimalProofs
  Int128Model Int128Spec.
Local Open Scope Z_scope.
Local Open Scope bool_scope.

Lemma p64 : 2 ^ 64 = 18446744073709551616. Proof. reflexivity. Qed.
Lemma p63 : 2 ^ 63 = 9223372036854775808. Proof. reflexivity. Qed.
Lemma p128 : 2 ^ 128 = 18446744073709551616 * 18446744073709551616. Proof. reflexivity. Qed.
Ltac norm := rewrite ?p64, ?p63, ?p128 in *.
Ltac unf := unfold is_u128, is_i128, uvalid, ivalid, uval, ival in *; cbn [uhigh ulow ihigh ilow] in *; norm.

(** *** [is_u128]/[is_i128] determine the value *)
Lemma is_u128_unique x z : is_u128 x z -> 0 <= z < 2 ^ 128 -> uval x = z.
Proof. intros [H [k E]] Hz. unf. assert (k = 0) by nia. subst. lia. Qed.
Lemma is_i128_unique x z : is_i128 x z -> - 2 ^ 127 <= z < 2 ^ 127 -> ival x = z.
Proof.
  intros [H [k E]] Hz. change (2 ^ 127) with (9223372036854775808 * 18446744073709551616) in Hz.
  unf. assert (k = 0) by nia. subst. lia.
Qed.
Lemma is_u128_cong x z1 z2 : is_u128 x z1 -> (exists k, z2 = z1 + k * 2 ^ 128) -> is_u128 x z2.
Proof. intros [H [k E]] [j E2]. split; auto. exists (k + j). lia. Qed.
Lemma is_i128_cong x z1 z2 : is_i128 x z1 -> (exists k, z2 = z1 + k * 2 ^ 128) -> is_i128 x z2.
Proof. intros [H [k E]] [j E2]. split; auto. exists (k + j). lia. Qed.
Lemma is_u128_refl x : uvalid x -> is_u128 x (uval x).
Proof. split; auto. exists 0; lia. Qed.
Lemma is_i128_refl x : ivalid x -> is_i128 x (ival x).
Proof. split; auto. exists 0; lia. Qed.

Lemma uval_inj x y : uvalid x -> uvalid y -> uval x = uval y -> x = y.
Proof.
  destruct x as [h1 l1], y as [h2 l2]. unf. intros. assert (h1 = h2) by nia. subst. f_equal; lia.
Qed.
Lemma ival_inj x y : ivalid x -> ivalid y -> ival x = ival y -> x = y.
Proof.
  destruct x as [h1 l1], y as [h2 l2]. unf. intros. assert (h1 = h2) by nia. subst. f_equal; lia.
Qed.

Lemma wrapU z : exists k, z = wrap U64 z + k * 18446744073709551616 /\ 0 <= wrap U64 z < 18446744073709551616.
Proof.
  destruct (wrap_wraps U64 z) as [H [k E]]. unfold in_range in H; cbn [lowest highest] in H.
  exists k. split; [exact E|lia].
Qed.
Lemma wrapI z : exists k, z = wrap I64 z + k * 18446744073709551616 /\ -9223372036854775808 <= wrap I64 z < 9223372036854775808.
Proof.
  destruct (wrap_wraps I64 z) as [H [k E]]. unfold in_range in H; cbn [lowest highest] in H.
  exists k. split; [exact E|lia].
Qed.

Lemma wrapU_mod z : wrap U64 z = z mod 2 ^ 64.
Proof.
  destruct (wrapU z) as (k & E & R). rewrite E at 2. rewrite <- p64 in *. rewrite Z.mod_add by lia.
  now rewrite Z.mod_small by lia.
Qed.

Lemma add_low l1 l2 : 0 <= l1 < 18446744073709551616 -> 0 <= l2 < 18446744073709551616 ->
  let c := if 18446744073709551616 <=? l1 + l2 then 1 else 0 in
  wrap U64 (l1 + l2) = l1 + l2 - c * 18446744073709551616.
Proof.
  intros H1 H2 c. apply wrap_unique. unfold wraps_to, in_range; cbn [lowest highest].
  unfold c; destruct (Z.leb_spec 18446744073709551616 (l1 + l2)); (split; [lia|]);
    [exists 1|exists 0]; unfold modulus; cbn [lowest highest]; lia.
Qed.

Lemma U128_Add_spec a b : uvalid a -> uvalid b -> is_u128 (U128_Add a b) (uval a + uval b).
Proof.
  intros Ha Hb. destruct a as [h1 l1], b as [h2 l2]. unfold U128_Add. unf. cbv zeta.
  rewrite wrap_add_l.
  assert ((if (wrap U64 (l1 + l2) <? l1) || (wrap U64 (l1 + l2) <? l2) then 1 else 0)
          = if 18446744073709551616 <=? l1 + l2 then 1 else 0) as ->.
  { rewrite add_low by lia. destruct (Z.leb_spec 18446744073709551616 (l1 + l2)); zcase; lia. }
  pose proof (add_low l1 l2 ltac:(lia) ltac:(lia)) as HL. cbv zeta in HL. rewrite HL.
  destruct (wrapU (h1 + h2 + (if 18446744073709551616 <=? l1 + l2 then 1 else 0))) as (k & E & R).
  split.
  - split; [lia|]. destruct (Z.leb_spec 18446744073709551616 (l1 + l2)); lia.
  - exists k. destruct (Z.leb_spec 18446744073709551616 (l1 + l2)); lia.
Qed.

Lemma I128_Add_spec a b : ivalid a -> ivalid b -> is_i128 (I128_Add a b) (ival a + ival b).
Proof.
  intros Ha Hb. destruct a as [h1 l1], b as [h2 l2]. unfold I128_Add. unf. cbv zeta.
  rewrite wrap_add_l.
  match goal with |- context [ h1 + h2 + ?c ] =>
    assert (c = if 18446744073709551616 <=? l1 + l2 then 1 else 0) as -> end.
  { destruct (Z.ltb_spec l1 0); [lia|]. cbn [andb].
    destruct (Z.ltb_spec 0 l1), (Z.ltb_spec 0 l2); cbn [andb];
    [rewrite add_low by lia|..]; destruct (Z.leb_spec 18446744073709551616 (l1 + l2)); zcase; lia. }
  pose proof (add_low l1 l2 ltac:(lia) ltac:(lia)) as HL. cbv zeta in HL. rewrite HL.
  destruct (wrapI (h1 + h2 + (if 18446744073709551616 <=? l1 + l2 then 1 else 0))) as (k & E & R).
  split.
  - split; [lia|]. destruct (Z.leb_spec 18446744073709551616 (l1 + l2)); lia.
  - exists k. destruct (Z.leb_spec 18446744073709551616 (l1 + l2)); lia.
Qed.

Lemma U128_Sub_spec a b : uvalid a -> uvalid b -> is_u128 (U128_Sub a b) (uval a - uval b).
Proof.
  intros Ha Hb. destruct a as [h1 l1], b as [h2 l2]. unfold U128_Sub. unf. cbv zeta.
  rewrite <- (Z.add_opp_r (wrap U64 (h1 - h2))), wrap_add_l.
  destruct (wrapU (h1 - h2 + - (if l1 <? l2 then 1 else 0))) as (k & E & R).
  assert (wrap U64 (l1 - l2) = l1 - l2 + (if l1 <? l2 then 18446744073709551616 else 0)) as HL.
  { apply wrap_unique. unfold wraps_to, in_range; cbn [lowest highest].
    destruct (Z.ltb_spec l1 l2); (split; [lia|]); [exists (-1)|exists 0]; unfold modulus; cbn [lowest highest]; lia. }
  rewrite HL. split.
  - split; [lia|]. destruct (Z.ltb_spec l1 l2); lia.
  - exists k. destruct (Z.ltb_spec l1 l2); lia.
Qed.

(** *** Negation *)
Definition neg_ok (x : I128) : Prop := 0 < ilow x < 2 ^ 64 - 1.

Lemma I128_Neg_valid a : ivalid a -> ivalid (I128_Neg a).
Proof.
  destruct a as [h l]. unfold I128_Neg. unf. cbv zeta. intros [H1 H2].
  change (MAX U64) with 18446744073709551615. unfold not_i64, not_u64. change (MAX U64) with 18446744073709551615.
  destruct (Z.eqb_spec l 18446744073709551615); cbn [ihigh ilow].
  - destruct (wrapI (- h - 1 + 1)) as (k & E & R). lia.
  - destruct (wrapU (18446744073709551615 - l + 1)) as (k & E & R). lia.
Qed.

(** Exact value: Neg is right except for a low word of 0 or 2^64-1, where the
    result is off by 2^64. *)
Lemma I128_Neg_char a : ivalid a ->
  is_i128 (I128_Neg a)
    (- ival a + (if ilow a =? 0 then - 2 ^ 64 else if ilow a =? 2 ^ 64 - 1 then 2 ^ 64 - 1 else 0)).
Proof.
  intros Ha. split. { now apply I128_Neg_valid. }
  destruct a as [h l]. unfold I128_Neg. unf. cbv zeta.
  unfold not_i64, not_u64. change (MAX U64) with 18446744073709551615.
  change (18446744073709551616 - 1) with 18446744073709551615.
  destruct (Z.eqb_spec l 0); [|destruct (Z.eqb_spec l 18446744073709551615)]; subst; cbn [ihigh ilow].
  - change (0 =? 18446744073709551615) with false. cbn [ihigh ilow].
    exists 0. change (wrap U64 (18446744073709551615 - 0 + 1)) with 0. lia.
  - destruct (wrapI (- h - 1 + 1)) as (k & E & R). exists k. lia.
  - rewrite (wrap_id U64 (18446744073709551615 - l + 1)) by (unfold in_range; cbn [lowest highest]; lia).
    exists 0. lia.
Qed.

Lemma I128_Neg_ok a : ivalid a -> neg_ok a -> is_i128 (I128_Neg a) (- ival a).
Proof.
  intros Ha Hn. pose proof (I128_Neg_char a Ha) as H. unfold neg_ok in Hn.
  destruct (Z.eqb_spec (ilow a) 0); [lia|]. destruct (Z.eqb_spec (ilow a) (2 ^ 64 - 1)); [lia|].
  now rewrite Z.add_0_r in H.
Qed.

Lemma I128_Neg_correct_iff a : ivalid a -> (is_i128 (I128_Neg a) (- ival a) <-> neg_ok a).
Proof.
  intros Ha. split; [|now apply I128_Neg_ok]. intros [_ [k E]].
  pose proof (I128_Neg_char a Ha) as [_ [j E2]]. unfold neg_ok.
  destruct Ha as [_ Hl]. unf.
  change (18446744073709551616 - 1) with 18446744073709551615 in *.
  destruct (Z.eqb_spec (ilow a) 0); [exfalso; lia|].
  destruct (Z.eqb_spec (ilow a) 18446744073709551615); [exfalso; lia|]. lia.
Qed.

Lemma I128_Sub_ok a b : ivalid a -> ivalid b -> neg_ok b -> is_i128 (I128_Sub a b) (ival a - ival b).
Proof.
  intros Ha Hb Hn. unfold I128_Sub.
  destruct (I128_Neg_ok b Hb Hn) as [V [k E]].
  eapply is_i128_cong; [apply I128_Add_spec; auto|]. exists k. lia.
Qed.
Lemma I128_Sub_char a b : ivalid a -> ivalid b ->
  is_i128 (I128_Sub a b)
    (ival a - ival b + (if ilow b =? 0 then - 2 ^ 64 else if ilow b =? 2 ^ 64 - 1 then 2 ^ 64 - 1 else 0)).
Proof.
  intros Ha Hb. unfold I128_Sub.
  destruct (I128_Neg_char b Hb) as [V [k E]].
  eapply is_i128_cong; [apply I128_Add_spec; auto|]. exists k. lia.
Qed.

(** *** Shifts by one *)
Lemma lor_high a : 0 <= a < 2 ^ 63 -> Z.lor a (2 ^ 63) = a + 2 ^ 63.
Proof.
  intros H. rewrite <- Z.lxor_lor.
  - symmetry. apply Z.add_nocarry_lxor.
    apply Z.bits_inj'. intros n Hn. rewrite Z.land_spec, Z.pow2_bits_eqb, Z.bits_0 by lia.
    destruct (Z.eqb_spec 63 n); [|apply andb_false_r]. subst.
    rewrite andb_true_r. apply Z.bits_above_log2; [lia|].
    destruct (Z.eq_dec a 0) as [->|]; [reflexivity|]. apply Z.log2_lt_pow2; lia.
  - apply Z.bits_inj'. intros n Hn. rewrite Z.land_spec, Z.pow2_bits_eqb, Z.bits_0 by lia.
    destruct (Z.eqb_spec 63 n); [|apply andb_false_r]. subst.
    rewrite andb_true_r. apply Z.bits_above_log2; [lia|].
    destruct (Z.eq_dec a 0) as [->|]; [reflexivity|]. apply Z.log2_lt_pow2; lia.
Qed.

Lemma land1 x : (Z.land x 1 =? 1) = Z.odd x.
Proof.
  change 1 with (Z.ones 1) at 1. rewrite Z.land_ones by lia. change (2 ^ 1) with 2.
  rewrite Zmod_odd. now destruct (Z.odd x).
Qed.

Lemma top_bit l : 0 <= l < 2 ^ 64 -> (shr_by U64 l 63 =? 1) = (9223372036854775808 <=? l).
Proof.
  intros H. unfold shr_by. cbn [width]. change (64 <=? 63) with false. cbv iota.
  norm. destruct (Z.leb_spec 9223372036854775808 l).
  - assert (l / 9223372036854775808 = 1) as ->; [|reflexivity].
    symmetry. apply Z.div_unique with (l - 9223372036854775808); lia.
  - rewrite Z.div_small by lia. reflexivity.
Qed.

Lemma U128_Shl1 a : uvalid a -> is_u128 (U128_Shl a (U128_FromU64 1)) (2 * uval a).
Proof.
  intros Ha. destruct a as [h l]. unfold U128_Shl, U128_FromU64. unf. cbv zeta.
  destruct Ha as [H1 H2]. rewrite top_bit by (norm; lia).
  unfold shl_by. cbn [width]. change (64 <=? 1) with false. cbv iota. change (2 ^ 1) with 2.
  assert (wrap U64 (l * 2) = 2 * l - (if 9223372036854775808 <=? l then 18446744073709551616 else 0)) as HL.
  { apply wrap_unique. unfold wraps_to, in_range; cbn [lowest highest].
    destruct (Z.leb_spec 9223372036854775808 l); (split; [lia|]); [exists 1|exists 0]; unfold modulus; cbn [lowest highest]; lia. }
  rewrite HL.
  destruct (Z.leb_spec 9223372036854775808 l).
  - rewrite wrap_add_l. destruct (wrapU (h * 2 + 1)) as (k & E & R). split; [lia|]. exists k. lia.
  - destruct (wrapU (h * 2)) as (k & E & R). split; [lia|]. exists k. lia.
Qed.

Lemma I128_Shl1 a : ivalid a -> is_i128 (I128_Shl a (I128_FromI64 1)) (2 * ival a).
Proof.
  intros Ha. destruct a as [h l]. change (I128_FromI64 1) with (mkI 0 1). unfold I128_Shl. unf. cbv zeta.
  destruct Ha as [H1 H2]. rewrite top_bit by (norm; lia).
  unfold shl_by. cbn [width]. change (64 <=? 1) with false. cbv iota. change (2 ^ 1) with 2.
  assert (wrap U64 (l * 2) = 2 * l - (if 9223372036854775808 <=? l then 18446744073709551616 else 0)) as HL.
  { apply wrap_unique. unfold wraps_to, in_range; cbn [lowest highest].
    destruct (Z.leb_spec 9223372036854775808 l); (split; [lia|]); [exists 1|exists 0]; unfold modulus; cbn [lowest highest]; lia. }
  rewrite HL.
  destruct (Z.leb_spec 9223372036854775808 l).
  - rewrite wrap_add_l. destruct (wrapI (h * 2 + 1)) as (k & E & R). split; [lia|]. exists k. lia.
  - destruct (wrapI (h * 2)) as (k & E & R). split; [lia|]. exists k. lia.
Qed.

Lemma half_parts h l : 0 <= l < 18446744073709551616 ->
  (h * 18446744073709551616 + l) / 2 =
    h / 2 * 18446744073709551616 + (l / 2 + (if Z.odd h then 9223372036854775808 else 0)).
Proof.
  intros H. pose proof (Zmod_odd h) as HM. pose proof (Z.div_mod h 2 ltac:(lia)).
  pose proof (Z.div_mod l 2 ltac:(lia)). pose proof (Z.mod_pos_bound l 2 ltac:(lia)).
  symmetry. apply Z.div_unique with (l mod 2); [lia|].
  destruct (Z.odd h); lia.
Qed.

Lemma U128_Shr1 a : uvalid a -> uvalid (U128_Shr a (U128_FromU64 1)) /\
  uval (U128_Shr a (U128_FromU64 1)) = uval a / 2.
Proof.
  intros Ha. destruct a as [h l]. unfold U128_Shr, U128_FromU64. cbn [uhigh ulow]. cbv zeta.
  rewrite land1. unfold shr_by. cbn [width]. change (64 <=? 1) with false. cbv iota. change (2 ^ 1) with 2.
  unf. destruct Ha as [H1 H2].
  assert (0 <= l / 2 < 9223372036854775808) as HL.
  { split. apply Z.div_pos; lia. apply Z.div_lt_upper_bound; lia. }
  assert (0 <= h / 2 < 9223372036854775808) as HH.
  { split. apply Z.div_pos; lia. apply Z.div_lt_upper_bound; lia. }
  rewrite half_parts by lia. destruct (Z.odd h).
  - rewrite <- p63, lor_high by (norm; lia). norm. lia.
  - lia.
Qed.

Lemma I128_Shr1 a : ivalid a -> ivalid (I128_Shr a (I128_FromI64 1)) /\
  ival (I128_Shr a (I128_FromI64 1)) = ival a / 2.
Proof.
  intros Ha. destruct a as [h l]. change (I128_FromI64 1) with (mkI 0 1). unfold I128_Shr. cbn [ihigh ilow]. cbv zeta.
  rewrite land1. unfold shr_by. cbn [width]. change (64 <=? 1) with false. cbv iota. change (2 ^ 1) with 2.
  unf. destruct Ha as [H1 H2].
  assert (0 <= l / 2 < 9223372036854775808) as HL.
  { split. apply Z.div_pos; lia. apply Z.div_lt_upper_bound; lia. }
  assert (-9223372036854775808 <= h / 2 < 9223372036854775808) as HH.
  { split. apply Z.div_le_lower_bound; lia. apply Z.div_lt_upper_bound; lia. }
  rewrite half_parts by lia. destruct (Z.odd h).
  - rewrite <- p63, lor_high by (norm; lia). norm. lia.
  - lia.
Qed.

(** *** Multiplication *)
Lemma mod_step r n : r mod 2 ^ Z.of_nat (S n) = 2 * ((r / 2) mod 2 ^ Z.of_nat n) + (if Z.odd r then 1 else 0).
Proof.
  rewrite Nat2Z.inj_succ, Z.pow_succ_r by lia.
  assert (0 < 2 ^ Z.of_nat n) by (apply Z.pow_pos_nonneg; lia).
  rewrite Z.rem_mul_r by lia. rewrite Zmod_odd. lia.
Qed.

Lemma odd_low h l : Z.odd l = Z.odd (h * 18446744073709551616 + l).
Proof.
  rewrite Z.odd_add, Z.odd_mul. change (Z.odd 18446744073709551616) with false.
  rewrite andb_false_r. now destruct (Z.odd l).
Qed.

Lemma U128_mul_loop_spec n : forall res self rhs,
  uvalid res -> uvalid self -> uvalid rhs ->
  is_u128 (U128_mul_loop n res self rhs) (uval res + uval self * (uval rhs mod 2 ^ Z.of_nat n)).
Proof.
  induction n; intros res self rhs H1 H2 H3.
  - cbn [U128_mul_loop]. change (2 ^ Z.of_nat 0) with 1. rewrite Z.mod_1_r, Z.mul_0_r, Z.add_0_r. now apply is_u128_refl.
  - cbn [U128_mul_loop]. rewrite land1.
    destruct (U128_Shl1 self H2) as [V2 [k2 E2]].
    destruct (U128_Shr1 rhs H3) as [V3 E3].
    rewrite mod_step, <- E3.
    assert (Z.odd (ulow rhs) = Z.odd (uval rhs)) as -> by (unfold uval; rewrite p64; apply odd_low).
    destruct (Z.odd (uval rhs)).
    + destruct (U128_Add_spec res self H1 H2) as [V1 [k1 E1]].
      eapply is_u128_cong; [apply IHn; auto|].
      exists (k1 + k2 * (uval (U128_Shr rhs (U128_FromU64 1)) mod 2 ^ Z.of_nat n)). nia.
    + eapply is_u128_cong; [apply IHn; auto|].
      exists (k2 * (uval (U128_Shr rhs (U128_FromU64 1)) mod 2 ^ Z.of_nat n)). nia.
Qed.

Lemma U128_Mul_spec a b : uvalid a -> uvalid b -> is_u128 (U128_Mul a b) (uval a * uval b).
Proof.
  intros Ha Hb. unfold U128_Mul.
  pose proof (U128_mul_loop_spec 128 (mkU 0 0) a b ltac:(unf; lia) Ha Hb) as H.
  assert (uval (mkU 0 0) = 0) as E0 by reflexivity.
  rewrite E0, Z.add_0_l in H.
  assert (uval b mod 2 ^ Z.of_nat 128 = uval b) as E1.
  { apply Z.mod_small. clear H. change (Z.of_nat 128) with 128. unf. lia. }
  rewrite E1 in H. exact H.
Qed.

Lemma I128_mul_loop_spec n : forall res self rhs,
  ivalid res -> ivalid self -> ivalid rhs ->
  is_i128 (I128_mul_loop n res self rhs) (ival res + ival self * (ival rhs mod 2 ^ Z.of_nat n)).
Proof.
  induction n; intros res self rhs H1 H2 H3.
  - cbn [I128_mul_loop]. change (2 ^ Z.of_nat 0) with 1. rewrite Z.mod_1_r, Z.mul_0_r, Z.add_0_r. now apply is_i128_refl.
  - cbn [I128_mul_loop]. rewrite land1.
    destruct (I128_Shl1 self H2) as [V2 [k2 E2]].
    destruct (I128_Shr1 rhs H3) as [V3 E3].
    rewrite mod_step, <- E3.
    assert (Z.odd (ilow rhs) = Z.odd (ival rhs)) as -> by (unfold ival; rewrite p64; apply odd_low).
    destruct (Z.odd (ival rhs)).
    + destruct (I128_Add_spec res self H1 H2) as [V1 [k1 E1]].
      eapply is_i128_cong; [apply IHn; auto|].
      exists (k1 + k2 * (ival (I128_Shr rhs (I128_FromI64 1)) mod 2 ^ Z.of_nat n)). nia.
    + eapply is_i128_cong; [apply IHn; auto|].
      exists (k2 * (ival (I128_Shr rhs (I128_FromI64 1)) mod 2 ^ Z.of_nat n)). nia.
Qed.

Lemma I128_mul_loop_128 a b : ivalid a -> ivalid b ->
  is_i128 (I128_mul_loop 128 (mkI 0 0) a b) (ival a * ival b).
Proof.
  intros Ha Hb.
  pose proof (I128_mul_loop_spec 128 (mkI 0 0) a b ltac:(unf; lia) Ha Hb) as H.
  assert (ival (mkI 0 0) = 0) as E0 by reflexivity.
  rewrite E0, Z.add_0_l in H. 
  eapply is_i128_cong; [exact H|]. clear H. change (Z.of_nat 128) with 128.
  pose proof (Z.div_mod (ival b) (2 ^ 128) ltac:(lia)) as HD.
  exists (ival a * (ival b / 2 ^ 128)). nia.
Qed.

Lemma ival_sign a : ivalid a -> (ihigh a <? 0) = (ival a <? 0).
Proof.
  intros [H1 H2]. unf. destruct (Z.ltb_spec (ihigh a) 0), (Z.ltb_spec (ihigh a * 18446744073709551616 + ilow a) 0); lia.
Qed.

(** [a] is non-negative or [Neg] is right on it. *)
Definition mag_ok (a : I128) : Prop := 0 <= ihigh a \/ neg_ok a.

Definition mag (a : I128) : I128 := if ihigh a <? 0 then I128_Neg a else a.

Lemma mag_spec a : ivalid a -> mag_ok a -> ivalid (mag a) /\ ival (mag a) = Z.abs (ival a).
Proof.
  intros Ha Hm. unfold mag. rewrite ival_sign by auto. destruct (Z.ltb_spec (ival a) 0).
  - destruct Hm as [Hm|Hm]. { exfalso. destruct Ha. unf. lia. }
    pose proof (I128_Neg_ok a Ha Hm) as HN. split. { apply HN. }
    rewrite (is_i128_unique _ _ HN); [lia|].
    unfold neg_ok in Hm. destruct Ha. change (2 ^ 127) with (9223372036854775808 * 18446744073709551616). unf. lia.
  - split; auto. lia.
Qed.

Lemma I128_Mul_ok a b : ivalid a -> ivalid b -> mag_ok a -> mag_ok b ->
  ((ival a <? 0) = (ival b <? 0) \/ neg_ok (I128_mul_loop 128 (mkI 0 0) (mag a) (mag b))) ->
  is_i128 (I128_Mul a b) (ival a * ival b).
Proof.
  intros Ha Hb Ma Mb HS. unfold I128_Mul. cbv zeta. fold (mag a). fold (mag b).
  destruct (mag_spec a Ha Ma) as [Va Ea]. destruct (mag_spec b Hb Mb) as [Vb Eb].
  pose proof (I128_mul_loop_128 _ _ Va Vb) as HM. rewrite Ea, Eb in HM.
  rewrite !ival_sign by auto.
  destruct (Z.ltb_spec (ival a) 0), (Z.ltb_spec (ival b) 0); cbn [xorb];
    [ | | |];
    try (replace (ival a * ival b) with (Z.abs (ival a) * Z.abs (ival b)) by (rewrite <- Z.abs_mul; lia); exact HM);
    (destruct HS as [HS|HS]; [discriminate|]);
    destruct HM as [VM [k EM]]; destruct (I128_Neg_ok _ VM HS) as [VN [j EN]];
    split; auto; exists (j - k); nia.
Qed.

(** *** Comparison and conversions *)
Lemma U128_Cmp_spec a b : uvalid a -> uvalid b ->
  U128_Cmp a b = match Z.compare (uval a) (uval b) with Lt => Less | Eq => Equal | Gt => Greater end.
Proof.
  destruct a as [h1 l1], b as [h2 l2]. unfold U128_Cmp, word_cmp. unf. intros Ha Hb.
  destruct (Z.compare_spec (h1 * 18446744073709551616 + l1) (h2 * 18446744073709551616 + l2)); zcase; auto; exfalso; nia.
Qed.
Lemma I128_Cmp_spec a b : ivalid a -> ivalid b ->
  I128_Cmp a b = match Z.compare (ival a) (ival b) with Lt => Less | Eq => Equal | Gt => Greater end.
Proof.
  destruct a as [h1 l1], b as [h2 l2]. unfold I128_Cmp, word_cmp. unf. intros Ha Hb.
  destruct (Z.compare_spec (h1 * 18446744073709551616 + l1) (h2 * 18446744073709551616 + l2)); zcase; auto; exfalso; nia.
Qed.

Lemma I128_FromI64_spec x : in_range I64 x -> ivalid (I128_FromI64 x) /\ ival (I128_FromI64 x) = x.
Proof.
  intros H. unfold I128_FromI64. unfold in_range in H; cbn [lowest highest] in H.
  destruct (Z.eqb_spec x 0); [subst; split; unf; lia|].
  destruct (Z.ltb_spec x 0).
  - assert (wrap U64 (Abs I64 x) = - x) as ->.
    { rewrite abs_correct by (auto; unfold in_range; cbn; lia).
      destruct (Z.eqb_spec x (lowest I64)).
      - subst. reflexivity.
      - rewrite wrap_id; [lia|]. unfold in_range; cbn [lowest highest]. lia. }
    assert (ivalid (mkI 0 (- x))) as V by (unf; lia).
    assert (neg_ok (mkI 0 (- x))) as N by (unfold neg_ok; cbn [ilow]; norm; lia).
    pose proof (I128_Neg_ok _ V N) as HN. split; [apply HN|].
    rewrite (is_i128_unique _ _ HN).
    + unf. lia.
    + change (2 ^ 127) with (9223372036854775808 * 18446744073709551616). unf. lia.
  - rewrite wrap_id by (unfold in_range; cbn [lowest highest]; lia). split; unf; lia.
Qed.

(** *** Decimal text *)
Fixpoint lsb (n : nat) (x : Z) : list Z :=
  match n with O => [] | S k => (if Z.odd x then 49 else 48) :: lsb k (x / 2) end.
Lemma bits_lsb n : forall x acc, bits n x acc = rev (lsb n x) ++ acc.
Proof.
  induction n; intros; cbn [bits lsb rev]; auto. rewrite IHn, land1, <- app_assoc. reflexivity.
Qed.
Lemma lsb_length n : forall x, length (lsb n x) = n.
Proof. induction n; intros; cbn [lsb length]; auto. Qed.
Lemma bin_value_app l1 : forall l2 d s,
  bin_value (l1 ++ l2) d s = bin_value l2 (d * 2 ^ Z.of_nat (length l1)) (bin_value l1 d s).
Proof.
  induction l1; intros; cbn [bin_value app length].
  - change (2 ^ Z.of_nat 0) with 1. now rewrite Z.mul_1_r.
  - rewrite IHl1, Nat2Z.inj_succ, Z.pow_succ_r by lia. f_equal. lia.
Qed.
Lemma bin_value_lsb n : forall x d s, bin_value (lsb n x) d s = s + d * (x mod 2 ^ Z.of_nat n).
Proof.
  induction n; intros.
  - cbn [lsb bin_value]. change (2 ^ Z.of_nat 0) with 1. rewrite Z.mod_1_r. lia.
  - cbn [lsb bin_value]. rewrite IHn, mod_step. destruct (Z.odd x).
    + change (49 =? 49) with true. cbv iota. lia.
    + change (48 =? 49) with false. cbv iota. lia.
Qed.
Lemma binary_text h l neg :
  ConvertBinaryStringToDecimalString (bits 64 h (bits 64 l [])) neg =
  Itoa (if neg then - (l mod 2 ^ 64 + 2 ^ 64 * (h mod 2 ^ 64)) else l mod 2 ^ 64 + 2 ^ 64 * (h mod 2 ^ 64)).
Proof.
  unfold ConvertBinaryStringToDecimalString. rewrite !bits_lsb, app_nil_r, rev_app_distr, !rev_involutive.
  rewrite bin_value_app, !bin_value_lsb, lsb_length. change (Z.of_nat 64) with 64.
  rewrite Z.mul_1_l, Z.add_0_l. destruct neg; f_equal; lia.
Qed.

Lemma U128_ToString_Itoa a : uvalid a -> U128_ToString a = Itoa (uval a).
Proof.
  intros [H1 H2]. unfold U128_ToString, uval. destruct (Z.eqb_spec (uhigh a) 0) as [E|E].
  - rewrite E. unfold ToString, FormatUint, Itoa. destruct (Z.ltb_spec (0 * 2 ^ 64 + ulow a) 0); [lia|].
    f_equal; lia.
  - rewrite binary_text, !Z.mod_small by lia. f_equal; lia.
Qed.

Lemma I128_ToString_nonneg a : ivalid a -> 0 <= ival a -> I128_ToString a = Itoa (ival a).
Proof.
  intros Ha Hn. pose proof (ival_sign a Ha) as HS. destruct Ha as [H1 H2].
  unfold I128_ToString. destruct (Z.eqb_spec (ihigh a) 0) as [E|E].
  - unfold ival in *. rewrite E in *. unfold ToString, FormatUint, Itoa.
    destruct (Z.ltb_spec (0 * 2 ^ 64 + ilow a) 0); [lia|]. f_equal; lia.
  - rewrite HS. destruct (Z.ltb_spec (ival a) 0); [lia|].
    rewrite binary_text. unf. rewrite !Z.mod_small by lia. f_equal; lia.
Qed.

Lemma I128_ToString_neg a : ivalid a -> ival a < 0 ->
  I128_ToString a = Itoa (- (ival (I128_Neg a) mod 2 ^ 128)).
Proof.
  intros Ha Hn. pose proof (ival_sign a Ha) as HS. pose proof (I128_Neg_valid a Ha) as [V1 V2].
  unfold I128_ToString. destruct (Z.eqb_spec (ihigh a) 0) as [E|E].
  { destruct Ha. unf. lia. }
  rewrite HS. destruct (Z.ltb_spec (ival a) 0); [|lia].
  rewrite binary_text. f_equal. f_equal.
  rewrite (Z.mod_small (ilow _)) by lia.
  unfold ival. apply Z.mod_unique_pos with (ihigh (I128_Neg a) / 2 ^ 64).
  - pose proof (Z.mod_pos_bound (ihigh (I128_Neg a)) (2 ^ 64) ltac:(lia)). norm. nia.
  - pose proof (Z.div_mod (ihigh (I128_Neg a)) (2 ^ 64) ltac:(lia)). norm. nia.
Qed.

Lemma I128_ToString_neg_ok a : ivalid a -> ival a < 0 -> neg_ok a -> I128_ToString a = Itoa (ival a).
Proof.
  intros Ha Hn Ho. rewrite I128_ToString_neg by auto.
  pose proof (I128_Neg_ok a Ha Ho) as HN.
  destruct Ha as [H1 H2].
  rewrite (is_i128_unique _ _ HN) by
    (unfold neg_ok in Ho; change (2 ^ 127) with (9223372036854775808 * 18446744073709551616); unf; lia).
  rewrite Z.mod_small by (unf; lia). f_equal; lia.
Qed.

(** *** Division *)
Lemma FillBytes16_spec x : 0 <= x < 2 ^ 128 ->
  FillBytes16 x = Ret (x / 2 ^ 64, x mod 2 ^ 64).
Proof. intros H. unfold FillBytes16. rewrite Z.abs_eq by lia. destruct (Z.ltb_spec x (2 ^ 128)); [reflexivity|lia]. Qed.

Lemma split_valid x : 0 <= x < 2 ^ 128 ->
  uvalid (mkU (x / 2 ^ 64) (x mod 2 ^ 64)) /\ uval (mkU (x / 2 ^ 64) (x mod 2 ^ 64)) = x.
Proof.
  intros H. unf.
  pose proof (Z.mod_pos_bound x 18446744073709551616 ltac:(lia)).
  pose proof (Z.div_mod x 18446744073709551616 ltac:(lia)).
  assert (0 <= x / 18446744073709551616) by (apply Z.div_pos; lia).
  assert (x / 18446744073709551616 < 18446744073709551616) by (apply Z.div_lt_upper_bound; lia).
  lia.
Qed.

Lemma SetString10_Itoa z : SetString10 (Itoa z) = Ret z.
Proof. unfold SetString10. now rewrite parse_Itoa. Qed.

Lemma U128_Div_spec a b : uvalid a -> uvalid b ->
  (uval b = 0 -> U128_Div a b = Panic) /\
  (uval b <> 0 -> exists q, U128_Div a b = Ret q /\ uvalid q /\ uval q = uval a / uval b).
Proof.
  intros Ha Hb.
  assert (0 <= uval a < 2 ^ 128) as Ra by (destruct Ha; unf; lia).
  assert (0 <= uval b < 2 ^ 128) as Rb by (destruct Hb; unf; lia).
  unfold U128_Div. rewrite U128_Cmp_spec, !U128_ToString_Itoa, !SetString10_Itoa by auto. cbn [bind].
  unfold big_Div. split; intros H0.
  - rewrite H0. destruct (Z.compare_spec (uval a) 0); [reflexivity|lia|reflexivity].
  - destruct (Z.eqb_spec (uval b) 0); [lia|]. destruct (Z.ltb_spec 0 (uval b)); [|lia].
    assert (0 <= uval a / uval b < 2 ^ 128) as Rq.
    { split. apply Z.div_pos; lia. apply Z.div_lt_upper_bound; nia. }
    destruct (Z.compare_spec (uval a) (uval b)).
    2: { exists (mkU 0 0). split; [reflexivity|]. split. unf; lia.
         rewrite Z.div_small by lia. reflexivity. }
    all: cbn [bind]; rewrite FillBytes16_spec by auto; cbn [bind fst snd];
      destruct (split_valid _ Rq); eauto.
Qed.

Lemma U128_Rem_spec a b : uvalid a -> uvalid b ->
  (uval b = 0 -> U128_Rem a b = Panic) /\
  (uval b <> 0 -> exists q, U128_Rem a b = Ret q /\ uvalid q /\ uval q = uval a mod uval b).
Proof.
  intros Ha Hb.
  assert (0 <= uval a < 2 ^ 128) as Ra by (destruct Ha; unf; lia).
  assert (0 <= uval b < 2 ^ 128) as Rb by (destruct Hb; unf; lia).
  unfold U128_Rem. rewrite U128_Cmp_spec, !U128_ToString_Itoa, !SetString10_Itoa by auto. cbn [bind].
  unfold big_Rem. split; intros H0.
  - rewrite H0. destruct (Z.compare_spec (uval a) 0); [reflexivity|lia|reflexivity].
  - destruct (Z.eqb_spec (uval b) 0); [lia|].
    rewrite Z.rem_mod_nonneg by lia.
    pose proof (Z.mod_pos_bound (uval a) (uval b) ltac:(lia)).
    assert (0 <= uval a mod uval b < 2 ^ 128) as Rq by lia.
    destruct (Z.compare_spec (uval a) (uval b)).
    2: { exists a. split; [reflexivity|]. split; auto. now rewrite Z.mod_small by lia. }
    all: cbn [bind]; rewrite FillBytes16_spec by auto; cbn [bind fst snd];
      destruct (split_valid _ Rq); eauto.
Qed.

(** Signed: on operands whose magnitude is computed correctly. *)
Lemma isplit_valid x : 0 <= x < 2 ^ 127 ->
  ivalid (mkI (wrap I64 (x / 2 ^ 64)) (x mod 2 ^ 64)) /\ ival (mkI (wrap I64 (x / 2 ^ 64)) (x mod 2 ^ 64)) = x.
Proof.
  intros H. change (2 ^ 127) with (9223372036854775808 * 18446744073709551616) in H.
  rewrite p64.
  pose proof (Z.mod_pos_bound x 18446744073709551616 ltac:(lia)).
  pose proof (Z.div_mod x 18446744073709551616 ltac:(lia)).
  assert (0 <= x / 18446744073709551616) by (apply Z.div_pos; lia).
  assert (x / 18446744073709551616 < 9223372036854775808) by (apply Z.div_lt_upper_bound; lia).
  rewrite wrap_id by (unfold in_range; cbn [lowest highest]; lia).
  unf. lia.
Qed.

Lemma mag_range a : ivalid a -> mag_ok a -> 0 <= Z.abs (ival a) < 2 ^ 127.
Proof.
  intros [H1 H2] Hm. change (2 ^ 127) with (9223372036854775808 * 18446744073709551616).
  unfold mag_ok, neg_ok in Hm. unf. lia.
Qed.

Lemma I128_Div_mag a b : ivalid a -> ivalid b -> mag_ok a -> mag_ok b ->
  (ival b = 0 -> I128_Div a b = Panic) /\
  (ival b <> 0 ->
    exists q, ivalid q /\ ival q = Z.abs (ival a) / Z.abs (ival b) /\
      I128_Div a b = Ret (if xorb (ival a <? 0) (ival b <? 0) && (Z.abs (ival b) <=? Z.abs (ival a))
                          then I128_Neg q else q)).
Proof.
  intros Ha Hb Ma Mb. unfold I128_Div. cbv zeta. fold (mag a) (mag b).
  destruct (mag_spec a Ha Ma) as [Va Ea]. destruct (mag_spec b Hb Mb) as [Vb Eb].
  pose proof (mag_range a Ha Ma) as Ra. pose proof (mag_range b Hb Mb) as Rb.
  rewrite !ival_sign by auto.
  rewrite I128_Cmp_spec, !I128_ToString_nonneg, !SetString10_Itoa by (auto; lia). cbn [bind].
  rewrite Ea, Eb. unfold big_Div. split; intros H0.
  - rewrite H0. cbn [Z.abs]. destruct (Z.compare_spec (Z.abs (ival a)) 0); [reflexivity|lia|reflexivity].
  - destruct (Z.eqb_spec (Z.abs (ival b)) 0); [lia|]. destruct (Z.ltb_spec 0 (Z.abs (ival b))); [|lia].
    assert (0 <= Z.abs (ival a) / Z.abs (ival b) <= Z.abs (ival a)) as Rq.
    { split. apply Z.div_pos; lia. apply Z.div_le_upper_bound; nia. }
    assert (2 ^ 127 < 2 ^ 128) by reflexivity.
    destruct (Z.compare_spec (Z.abs (ival a)) (Z.abs (ival b))).
    2: { exists (mkI 0 0). split; [unf; lia|]. split. { rewrite Z.div_small by lia. reflexivity. }
         destruct (Z.leb_spec (Z.abs (ival b)) (Z.abs (ival a))); [lia|]. now rewrite andb_false_r. }
    all: cbn [bind]; rewrite FillBytes16_spec by lia; cbn [bind fst snd];
      destruct (isplit_valid (Z.abs (ival a) / Z.abs (ival b)) ltac:(lia)) as [V E];
      eexists; (split; [exact V|]); (split; [exact E|]);
      destruct (Z.leb_spec (Z.abs (ival b)) (Z.abs (ival a))); try lia; now rewrite andb_true_r.
Qed.

Lemma I128_Rem_mag a b : ivalid a -> ivalid b -> mag_ok a -> mag_ok b ->
  (ival b = 0 -> I128_Rem a b = Panic) /\
  (ival b <> 0 ->
    exists r, ivalid r /\ ival r = Z.abs (ival a) mod Z.abs (ival b) /\
      I128_Rem a b = Ret (if xorb (ival a <? 0) (ival b <? 0) &&
                             ((Z.abs (ival a) <? Z.abs (ival b)) || negb (ival r =? 0))
                          then I128_Neg r else r)).
Proof.
  intros Ha Hb Ma Mb. unfold I128_Rem. cbv zeta. fold (mag a) (mag b).
  destruct (mag_spec a Ha Ma) as [Va Ea]. destruct (mag_spec b Hb Mb) as [Vb Eb].
  pose proof (mag_range a Ha Ma) as Ra. pose proof (mag_range b Hb Mb) as Rb.
  rewrite !ival_sign by auto.
  rewrite I128_Cmp_spec, !I128_ToString_nonneg, !SetString10_Itoa by (auto; lia). cbn [bind].
  rewrite Ea, Eb. unfold big_Rem. split; intros H0.
  - rewrite H0. cbn [Z.abs]. destruct (Z.compare_spec (Z.abs (ival a)) 0); [reflexivity|lia|reflexivity].
  - destruct (Z.eqb_spec (Z.abs (ival b)) 0); [lia|]. rewrite Z.rem_mod_nonneg by lia.
    pose proof (Z.mod_pos_bound (Z.abs (ival a)) (Z.abs (ival b)) ltac:(lia)) as Rq.
    assert (2 ^ 127 < 2 ^ 128) by reflexivity.
    destruct (Z.compare_spec (Z.abs (ival a)) (Z.abs (ival b))).
    2: { exists (mag a). split; auto. split. { now rewrite Z.mod_small by lia. }
         destruct (Z.ltb_spec (Z.abs (ival a)) (Z.abs (ival b))); [|lia]. cbn [orb]. rewrite andb_true_r. reflexivity. }
    all: cbn [bind]; rewrite FillBytes16_spec by lia; cbn [bind fst snd];
      destruct (isplit_valid (Z.abs (ival a) mod Z.abs (ival b)) ltac:(lia)) as [V E];
      eexists; (split; [exact V|]); (split; [exact E|]);
      (destruct (Z.ltb_spec (Z.abs (ival a)) (Z.abs (ival b))); [lia|]); cbn [orb];
      set (r := mkI _ _) in *; f_equal;
      (replace ((ihigh r =? 0) && (ilow r =? 0)) with (ival r =? 0)
        by (destruct V as [V1 V2]; unfold ival in *; rewrite p64 in *; clear - V1 V2;
            destruct (Z.eqb_spec (ihigh r) 0), (Z.eqb_spec (ilow r) 0); cbn [andb]; norm;
            destruct (Z.eqb_spec (ihigh r * 18446744073709551616 + ilow r) 0); auto; exfalso; nia));
      destruct (ival r =? 0), (xorb (ival a <? 0) (ival b <? 0)); reflexivity.
Qed.

(** *** The same facts phrased with [awkward] *)
Lemma ival_low a : ivalid a -> ival a mod 2 ^ 64 = ilow a.
Proof.
  intros [_ H]. unfold ival. rewrite Z.add_comm, Z.mod_add by lia. now apply Z.mod_small.
Qed.
Lemma neg_ok_awkward a : ivalid a -> (neg_ok a <-> ~ awkward (ival a)).
Proof.
  intros H. unfold neg_ok, awkward. rewrite ival_low by auto. destruct H as [_ H]. lia.
Qed.
Lemma awkward_cases a : ivalid a -> {ilow a = 0} + {ilow a = 2 ^ 64 - 1} + {~ awkward (ival a)}.
Proof.
  intros H. destruct (Z.eq_dec (ilow a) 0); [left; left; auto|].
  destruct (Z.eq_dec (ilow a) (2 ^ 64 - 1)); [left; right; auto|].
  right. unfold awkward. rewrite ival_low by auto. intuition.
Qed.

Lemma mag_ok_iff a : ivalid a -> (mag_ok a <-> (ival a < 0 -> ~ awkward (ival a))).
Proof.
  intros H. unfold mag_ok. rewrite neg_ok_awkward by auto.
  pose proof (ival_sign a H) as HS. destruct (Z.ltb_spec (ihigh a) 0), (Z.ltb_spec (ival a) 0); try discriminate; intuition; lia.
Qed.

Lemma mul_loop_low a b : ivalid a -> ivalid b ->
  ilow (I128_mul_loop 128 (mkI 0 0) a b) = (ival a * ival b) mod 2 ^ 64.
Proof.
  intros Ha Hb. destruct (I128_mul_loop_128 a b Ha Hb) as [V [k E]].
  rewrite E. rewrite <- (ival_low _ V).
  replace (k * 2 ^ 128) with (k * 2 ^ 64 * 2 ^ 64) by (change (2 ^ 128) with (2 ^ 64 * 2 ^ 64); ring).
  now rewrite Z.mod_add by lia.
Qed.

Lemma I128_Mul_partial a b : ivalid a -> ivalid b ->
  (ival a < 0 -> ~ awkward (ival a)) -> (ival b < 0 -> ~ awkward (ival b)) ->
  ((ival a < 0 <-> ival b < 0) \/ ~ awkward (Z.abs (ival a) * Z.abs (ival b))) ->
  is_i128 (I128_Mul a b) (ival a * ival b).
Proof.
  intros Ha Hb Ma Mb HS. apply I128_Mul_ok; auto; try (apply mag_ok_iff; auto).
  destruct HS as [HS|HS].
  - left. destruct (Z.ltb_spec (ival a) 0), (Z.ltb_spec (ival b) 0); auto; intuition; lia.
  - right. apply mag_ok_iff in Ma, Mb; auto.
    destruct (mag_spec a Ha Ma) as [Va Ea], (mag_spec b Hb Mb) as [Vb Eb].
    unfold neg_ok. rewrite mul_loop_low, Ea, Eb by auto. unfold awkward in HS.
    pose proof (Z.mod_pos_bound (Z.abs (ival a) * Z.abs (ival b)) (2 ^ 64) ltac:(lia)). lia.
Qed.

(** Mixed signs with an awkward product: off by 2^64 (or 2^64-1). *)
Lemma I128_Mul_awkward a b : ivalid a -> ivalid b ->
  (ival a < 0 -> ~ awkward (ival a)) -> (ival b < 0 -> ~ awkward (ival b)) ->
  (ival a < 0 <-> ~ ival b < 0) ->
  (Z.abs (ival a) * Z.abs (ival b)) mod 2 ^ 64 = 0 ->
  is_i128 (I128_Mul a b) (ival a * ival b - 2 ^ 64).
Proof.
  intros Ha Hb Ma Mb HS HL. unfold I128_Mul. cbv zeta. fold (mag a). fold (mag b).
  apply mag_ok_iff in Ma, Mb; auto.
  destruct (mag_spec a Ha Ma) as [Va Ea]. destruct (mag_spec b Hb Mb) as [Vb Eb].
  pose proof (I128_mul_loop_128 _ _ Va Vb) as HM.
  pose proof (mul_loop_low _ _ Va Vb) as HLW.
  rewrite Ea, Eb in HM, HLW. rewrite HL in HLW.
  set (m := I128_mul_loop 128 (mkI 0 0) (mag a) (mag b)) in *. clearbody m.
  rewrite !ival_sign by auto. destruct HM as [VM [k EM]].
  pose proof (I128_Neg_char m VM) as HN. rewrite HLW in HN. change (0 =? 0) with true in HN. cbv iota in HN.
  destruct (Z.ltb_spec (ival a) 0), (Z.ltb_spec (ival b) 0); cbn [xorb]; try (exfalso; intuition; lia);
    (eapply is_i128_cong; [exact HN|]); exists (-k); nia.
Qed.

(** *** ToString of awkward negatives *)
Lemma I128_ToString_low0 a : ivalid a -> ival a < 0 -> ilow a = 0 ->
  I128_ToString a = Itoa (ival a + 2 ^ 64).
Proof.
  intros Ha Hn HL. rewrite I128_ToString_neg by auto.
  pose proof (I128_Neg_char a Ha) as HN. rewrite HL in HN. change (0 =? 0) with true in HN. cbv iota in HN.
  rewrite (is_i128_unique _ _ HN).
  - rewrite Z.mod_small; [f_equal; lia|]. destruct Ha. unf. lia.
  - destruct Ha. change (2 ^ 127) with (9223372036854775808 * 18446744073709551616). unf. lia.
Qed.
Lemma I128_ToString_lowmax a : ivalid a -> ival a < 0 -> ilow a = 2 ^ 64 - 1 ->
  I128_ToString a = Itoa (ival a - (2 ^ 64 - 1)).
Proof.
  intros Ha Hn HL. rewrite I128_ToString_neg by auto.
  pose proof (I128_Neg_char a Ha) as HN. rewrite HL in HN.
  change (2 ^ 64 - 1 =? 0) with false in HN. change (2 ^ 64 - 1 =? 2 ^ 64 - 1) with true in HN. cbv iota in HN.
  destruct HN as [VN [k EN]]. f_equal. f_equal.
  rewrite <- (Z.mod_add (ival (I128_Neg a)) k) by lia. rewrite <- EN.
  rewrite Z.mod_small; [lia|]. destruct Ha. unf. lia.
Qed.

(** *** Abs and sign tests *)
Lemma I128_Abs_partial a : ivalid a -> (ival a < 0 -> ~ awkward (ival a)) ->
  ivalid (I128_Abs a) /\ ival (I128_Abs a) = Z.abs (ival a).
Proof. intros Ha Hn. apply (mag_spec a Ha). now apply mag_ok_iff. Qed.
Lemma I128_IsPositive_char a : ivalid a -> (I128_IsPositive a = true <-> 2 ^ 64 <= ival a).
Proof. intros [H1 H2]. unfold I128_IsPositive. rewrite Z.ltb_lt. unf. lia. Qed.
Lemma I128_IsNegative_spec a : ivalid a -> (I128_IsNegative a = true <-> ival a < 0).
Proof. intros [H1 H2]. unfold I128_IsNegative. rewrite Z.ltb_lt. unf. lia. Qed.

(** *** Shifts by any count *)
Lemma U128_Shl_small a n : uvalid a -> 0 <= ulow n < 64 ->
  is_u128 (U128_Shl a n)
    (uval a * 2 ^ ulow n + (ulow a / 2 ^ 63 - ulow a * 2 ^ ulow n / 2 ^ 64) * 2 ^ 64).
Proof.
  intros Ha Hn. destruct a as [h l], n as [nh n]. unfold U128_Shl. cbn [uhigh ulow] in *. cbv zeta.
  destruct Ha as [H1 H2]. cbn [uhigh ulow] in *. rewrite top_bit by lia.
  unfold shl_by. cbn [width]. destruct (Z.leb_spec 64 n); [lia|].
  rewrite (wrapU_mod (l * 2 ^ n)).
  pose proof (Z.div_mod (l * 2 ^ n) (2 ^ 64) ltac:(lia)) as HD.
  pose proof (Z.mod_pos_bound (l * 2 ^ n) (2 ^ 64) ltac:(lia)) as HB.
  assert (l / 2 ^ 63 = if 9223372036854775808 <=? l then 1 else 0) as ->.
  { norm. destruct (Z.leb_spec 9223372036854775808 l).
    - symmetry. apply Z.div_unique with (l - 9223372036854775808); lia.
    - apply Z.div_small; lia. }
  set (q := l * 2 ^ n / 2 ^ 64) in *. set (r := (l * 2 ^ n) mod 2 ^ 64) in *. clearbody q r.
  set (p := 2 ^ n) in *. clearbody p. norm. unfold is_u128, uvalid, uval. cbn [uhigh ulow]. norm.
  destruct (Z.leb_spec 9223372036854775808 l).
  - rewrite wrap_add_l. destruct (wrapU (h * p + 1)) as (k & E & R). split; [lia|]. exists k. nia.
  - destruct (wrapU (h * p)) as (k & E & R). split; [lia|]. exists k. nia.
Qed.

Lemma U128_Shl_big a n : uvalid a -> 64 <= ulow n ->
  uvalid (U128_Shl a n) /\ uval (U128_Shl a n) = ulow a / 2 ^ 63 * 2 ^ 64.
Proof.
  intros Ha Hn. destruct a as [h l], n as [nh n]. unfold U128_Shl. cbn [uhigh ulow] in *. cbv zeta.
  destruct Ha as [H1 H2]. cbn [uhigh ulow] in *. rewrite top_bit by lia.
  unfold shl_by. cbn [width]. destruct (Z.leb_spec 64 n); [|lia].
  change (wrap U64 (0 + 1)) with 1. unf.
  destruct (Z.leb_spec 9223372036854775808 l).
  - assert (l / 9223372036854775808 = 1) as ->; [|lia].
    symmetry. apply Z.div_unique with (l - 9223372036854775808); lia.
  - rewrite Z.div_small by lia. lia.
Qed.

Lemma I128_Shl_small a n : ivalid a -> 0 <= ilow n < 64 ->
  is_i128 (I128_Shl a n)
    (ival a * 2 ^ ilow n + (ilow a / 2 ^ 63 - ilow a * 2 ^ ilow n / 2 ^ 64) * 2 ^ 64).
Proof.
  intros Ha Hn. destruct a as [h l], n as [nh n]. unfold I128_Shl. cbn [ihigh ilow] in *. cbv zeta.
  destruct Ha as [H1 H2]. cbn [ihigh ilow] in *. rewrite top_bit by lia.
  unfold shl_by. cbn [width]. destruct (Z.leb_spec 64 n); [lia|].
  rewrite (wrapU_mod (l * 2 ^ n)).
  pose proof (Z.div_mod (l * 2 ^ n) (2 ^ 64) ltac:(lia)) as HD.
  pose proof (Z.mod_pos_bound (l * 2 ^ n) (2 ^ 64) ltac:(lia)) as HB.
  assert (l / 2 ^ 63 = if 9223372036854775808 <=? l then 1 else 0) as ->.
  { norm. destruct (Z.leb_spec 9223372036854775808 l).
    - symmetry. apply Z.div_unique with (l - 9223372036854775808); lia.
    - apply Z.div_small; lia. }
  set (q := l * 2 ^ n / 2 ^ 64) in *. set (r := (l * 2 ^ n) mod 2 ^ 64) in *. clearbody q r.
  set (p := 2 ^ n) in *. clearbody p. norm. unfold is_i128, ivalid, ival. cbn [ihigh ilow]. norm.
  destruct (Z.leb_spec 9223372036854775808 l).
  - rewrite wrap_add_l. destruct (wrapI (h * p + 1)) as (k & E & R). split; [lia|]. exists k. nia.
  - destruct (wrapI (h * p)) as (k & E & R). split; [lia|]. exists k. nia.
Qed.

Lemma I128_Shl_big a n : ivalid a -> 64 <= ilow n ->
  ivalid (I128_Shl a n) /\ ival (I128_Shl a n) = ilow a / 2 ^ 63 * 2 ^ 64.
Proof.
  intros Ha Hn. destruct a as [h l], n as [nh n]. unfold I128_Shl. cbn [ihigh ilow] in *. cbv zeta.
  destruct Ha as [H1 H2]. cbn [ihigh ilow] in *. rewrite top_bit by lia.
  unfold shl_by. cbn [width]. destruct (Z.leb_spec 64 n); [|lia].
  change (wrap I64 (0 + 1)) with 1. unf.
  destruct (Z.leb_spec 9223372036854775808 l).
  - assert (l / 9223372036854775808 = 1) as ->; [|lia].
    symmetry. apply Z.div_unique with (l - 9223372036854775808); lia.
  - rewrite Z.div_small by lia. lia.
Qed.

(** Shl loses nothing exactly when the bits that leave the low word equal its top bit. *)
Lemma U128_Shl_correct_iff a n : uvalid a -> 0 <= ulow n < 64 ->
  (is_u128 (U128_Shl a n) (uval a * 2 ^ ulow n) <-> ulow a * 2 ^ ulow n / 2 ^ 64 = ulow a / 2 ^ 63).
Proof.
  intros Ha Hn. pose proof (U128_Shl_small a n Ha Hn) as H. split.
  - intros H'. destruct H as [V [k E]], H' as [_ [j E']]. destruct Ha as [_ Hl].
    assert (0 <= ulow a / 2 ^ 63 < 2). { split. apply Z.div_pos; lia. apply Z.div_lt_upper_bound; lia. }
    assert (0 < 2 ^ ulow n) by (apply Z.pow_pos_nonneg; lia).
    assert (2 ^ ulow n < 2 ^ 64) by (apply Z.pow_lt_mono_r; lia).
    assert (0 <= ulow a * 2 ^ ulow n / 2 ^ 64 < 2 ^ 64) as HQ.
    { split. apply Z.div_pos; nia. apply Z.div_lt_upper_bound; nia. }
    clear V. set (q := ulow a * 2 ^ ulow n / 2 ^ 64) in *. set (t := ulow a / 2 ^ 63) in *.
    set (z := uval a * 2 ^ ulow n) in *. clearbody q t z. norm.
    assert ((t - q) = (k - j) * 18446744073709551616) by lia.
    assert (k - j = 0) by lia. lia.
  - intros E. rewrite E, Z.sub_diag, Z.mul_0_l, Z.add_0_r in H. exact H.
Qed.
Lemma I128_Shl_correct_iff a n : ivalid a -> 0 <= ilow n < 64 ->
  (is_i128 (I128_Shl a n) (ival a * 2 ^ ilow n) <-> ilow a * 2 ^ ilow n / 2 ^ 64 = ilow a / 2 ^ 63).
Proof.
  intros Ha Hn. pose proof (I128_Shl_small a n Ha Hn) as H. split.
  - intros H'. destruct H as [V [k E]], H' as [_ [j E']]. destruct Ha as [_ Hl].
    assert (0 <= ilow a / 2 ^ 63 < 2). { split. apply Z.div_pos; lia. apply Z.div_lt_upper_bound; lia. }
    assert (0 < 2 ^ ilow n) by (apply Z.pow_pos_nonneg; lia).
    assert (2 ^ ilow n < 2 ^ 64) by (apply Z.pow_lt_mono_r; lia).
    assert (0 <= ilow a * 2 ^ ilow n / 2 ^ 64 < 2 ^ 64) as HQ.
    { split. apply Z.div_pos; nia. apply Z.div_lt_upper_bound; nia. }
    clear V. set (q := ilow a * 2 ^ ilow n / 2 ^ 64) in *. set (t := ilow a / 2 ^ 63) in *.
    set (z := ival a * 2 ^ ilow n) in *. clearbody q t z. norm.
    assert ((t - q) = (k - j) * 18446744073709551616) by lia.
    assert (k - j = 0) by lia. lia.
  - intros E. rewrite E, Z.sub_diag, Z.mul_0_l, Z.add_0_r in H. exact H.
Qed.

Lemma lor_bit63 l h : 0 <= l < 2 ^ 64 ->
  (if Z.odd h then Z.lor l (2 ^ 63) else l) =
  if Z.odd h && (l <? 2 ^ 63) then l + 2 ^ 63 else l.
Proof.
  intros H. destruct (Z.odd h); auto. cbn [andb]. destruct (Z.ltb_spec l (2 ^ 63)).
  - apply lor_high; lia.
  - replace l with (Z.lor (l - 2 ^ 63) (2 ^ 63)) at 1.
    + rewrite <- Z.lor_assoc, Z.lor_diag. rewrite lor_high; norm; lia.
    + rewrite lor_high; norm; lia.
Qed.

Lemma shift_parts h l n : 0 <= n -> 0 <= l < 2 ^ 64 -> n <= 64 ->
  (h * 2 ^ 64 + l) / 2 ^ n = h / 2 ^ n * 2 ^ 64 + ((h mod 2 ^ n) * 2 ^ (64 - n) + l / 2 ^ n).
Proof.
  intros Hn Hl Hm. assert (0 < 2 ^ n) by (apply Z.pow_pos_nonneg; lia).
  assert (2 ^ 64 = 2 ^ (64 - n) * 2 ^ n) as E.
  { rewrite <- Z.pow_add_r by lia. f_equal. lia. }
  pose proof (Z.div_mod h (2 ^ n) ltac:(lia)) as HD.
  rewrite E at 1. 
  replace (h * (2 ^ (64 - n) * 2 ^ n) + l) with (l + (h * 2 ^ (64 - n)) * 2 ^ n) by ring.
  rewrite Z.div_add by lia.
  set (q := h / 2 ^ n) in *. set (r := h mod 2 ^ n) in *. rewrite E. rewrite HD. ring.
Qed.

Lemma U128_Shr_small a n : uvalid a -> 0 <= ulow n < 64 ->
  uvalid (U128_Shr a n) /\
  uval (U128_Shr a n) = uhigh a / 2 ^ ulow n * 2 ^ 64 + ulow a / 2 ^ ulow n
    + (if Z.odd (uhigh a) && (ulow a / 2 ^ ulow n <? 2 ^ 63) then 2 ^ 63 else 0).
Proof.
  intros Ha Hn. destruct a as [h l], n as [nh n]. unfold U128_Shr. cbn [uhigh ulow] in *. cbv zeta.
  destruct Ha as [H1 H2]. cbn [uhigh ulow] in *. rewrite land1.
  unfold shr_by. cbn [width]. destruct (Z.leb_spec 64 n); [lia|].
  assert (0 < 2 ^ n) by (apply Z.pow_pos_nonneg; lia).
  assert (0 <= l / 2 ^ n < 2 ^ 64). { split. apply Z.div_pos; lia. apply Z.div_lt_upper_bound; nia. }
  assert (0 <= h / 2 ^ n < 2 ^ 64). { split. apply Z.div_pos; lia. apply Z.div_lt_upper_bound; nia. }
  rewrite lor_bit63 by auto.
  unfold uvalid, uval; cbn [uhigh ulow]. destruct (Z.odd h); cbn [andb];
  [destruct (Z.ltb_spec (l / 2 ^ n) (2 ^ 63))|]; norm; lia.
Qed.
Lemma U128_Shr_big a n : uvalid a -> 64 <= ulow n ->
  uvalid (U128_Shr a n) /\ uval (U128_Shr a n) = (uhigh a mod 2) * 2 ^ 63.
Proof.
  intros Ha Hn. destruct a as [h l], n as [nh n]. unfold U128_Shr. cbn [uhigh ulow] in *. cbv zeta.
  destruct Ha as [H1 H2]. cbn [uhigh ulow] in *. rewrite land1.
  unfold shr_by. cbn [width]. destruct (Z.leb_spec 64 n); [|lia].
  destruct (Z.ltb_spec l 0); [lia|]. destruct (Z.ltb_spec h 0); [lia|].
  rewrite Zmod_odd. change (Z.lor 0 (2 ^ 63)) with (2 ^ 63).
  destruct (Z.odd h); unf; lia.
Qed.
Lemma I128_Shr_small a n : ivalid a -> 0 <= ilow n < 64 ->
  ivalid (I128_Shr a n) /\
  ival (I128_Shr a n) = ihigh a / 2 ^ ilow n * 2 ^ 64 + ilow a / 2 ^ ilow n
    + (if Z.odd (ihigh a) && (ilow a / 2 ^ ilow n <? 2 ^ 63) then 2 ^ 63 else 0).
Proof.
  intros Ha Hn. destruct a as [h l], n as [nh n]. unfold I128_Shr. cbn [ihigh ilow] in *. cbv zeta.
  destruct Ha as [H1 H2]. cbn [ihigh ilow] in *. rewrite land1.
  unfold shr_by. cbn [width]. destruct (Z.leb_spec 64 n); [lia|].
  assert (0 < 2 ^ n) by (apply Z.pow_pos_nonneg; lia).
  assert (0 <= l / 2 ^ n < 2 ^ 64). { split. apply Z.div_pos; lia. apply Z.div_lt_upper_bound; nia. }
  assert (- 2 ^ 63 <= h / 2 ^ n < 2 ^ 63).
  { split. apply Z.div_le_lower_bound; nia. apply Z.div_lt_upper_bound; nia. }
  rewrite lor_bit63 by auto.
  unfold ivalid, ival; cbn [ihigh ilow]. destruct (Z.odd h); cbn [andb];
  [destruct (Z.ltb_spec (l / 2 ^ n) (2 ^ 63))|]; norm; lia.
Qed.
Lemma I128_Shr_big a n : ivalid a -> 64 <= ilow n ->
  ivalid (I128_Shr a n) /\
  ival (I128_Shr a n) = (if ival a <? 0 then - 2 ^ 64 else 0) + (ihigh a mod 2) * 2 ^ 63.
Proof.
  intros Ha Hn. pose proof (ival_sign a Ha) as HS. destruct a as [h l], n as [nh n]. unfold I128_Shr. cbn [ihigh ilow] in *. cbv zeta.
  destruct Ha as [H1 H2]. cbn [ihigh ilow] in *. rewrite land1.
  unfold shr_by. cbn [width]. destruct (Z.leb_spec 64 n); [|lia].
  rewrite <- HS.
  destruct (Z.ltb_spec l 0); [lia|].
  rewrite Zmod_odd. change (Z.lor 0 (2 ^ 63)) with (2 ^ 63).
  destruct (Z.ltb_spec h 0), (Z.odd h); unf; lia.
Qed.

(** Shr is right when the bits that cross from the high to the low word are zero. *)
Lemma U128_Shr_no_cross a n : uvalid a -> 0 <= ulow n < 64 ->
  Z.odd (uhigh a) = false -> uhigh a mod 2 ^ ulow n = 0 ->
  uvalid (U128_Shr a n) /\ uval (U128_Shr a n) = uval a / 2 ^ ulow n.
Proof.
  intros Ha Hn Ho Hm. destruct (U128_Shr_small a n Ha Hn) as [V E]. split; auto. rewrite E, Ho. cbn [andb].
  destruct Ha as [H1 H2]. unfold uval. rewrite shift_parts, Hm by lia. lia.
Qed.
Lemma I128_Shr_no_cross a n : ivalid a -> 0 <= ilow n < 64 ->
  Z.odd (ihigh a) = false -> ihigh a mod 2 ^ ilow n = 0 ->
  ivalid (I128_Shr a n) /\ ival (I128_Shr a n) = ival a / 2 ^ ilow n.
Proof.
  intros Ha Hn Ho Hm. destruct (I128_Shr_small a n Ha Hn) as [V E]. split; auto. rewrite E, Ho. cbn [andb].
  destruct Ha as [H1 H2]. unfold ival. rewrite shift_parts, Hm by lia. lia.
Qed.

(** *** Division of operands whose magnitude is computed correctly *)
Lemma I128_Div_nonneg a b : ivalid a -> ivalid b -> 0 <= ival a -> 0 <= ival b ->
  (ival b = 0 -> I128_Div a b = Panic) /\
  (ival b <> 0 -> exists q, I128_Div a b = Ret q /\ ivalid q /\ ival q = ival a / ival b).
Proof.
  intros Ha Hb Pa Pb.
  destruct (I128_Div_mag a b Ha Hb) as [HP HQ]; try (apply mag_ok_iff; auto; lia).
  split; auto. intros H0. destruct (HQ H0) as (q & V & E & R).
  exists q. rewrite R. destruct (Z.ltb_spec (ival a) 0), (Z.ltb_spec (ival b) 0); try lia.
  cbn [xorb andb]. rewrite !Z.abs_eq in E by lia. auto.
Qed.
Lemma I128_Rem_nonneg a b : ivalid a -> ivalid b -> 0 <= ival a -> 0 <= ival b ->
  (ival b = 0 -> I128_Rem a b = Panic) /\
  (ival b <> 0 -> exists q, I128_Rem a b = Ret q /\ ivalid q /\ ival q = ival a mod ival b).
Proof.
  intros Ha Hb Pa Pb.
  destruct (I128_Rem_mag a b Ha Hb) as [HP HQ]; try (apply mag_ok_iff; auto; lia).
  split; auto. intros H0. destruct (HQ H0) as (q & V & E & R).
  exists q. rewrite R. destruct (Z.ltb_spec (ival a) 0), (Z.ltb_spec (ival b) 0); try lia.
  cbn [xorb andb]. rewrite !Z.abs_eq in E by lia. auto.
Qed.

Lemma neg_value q : ivalid q -> 0 <= ival q -> ~ awkward (ival q) -> ivalid (I128_Neg q) /\ ival (I128_Neg q) = - ival q.
Proof.
  intros V P N. pose proof (I128_Neg_ok q V ltac:(now apply neg_ok_awkward)) as H.
  split; [apply H|]. apply (is_i128_unique _ _ H).
  destruct V. change (2 ^ 127) with (9223372036854775808 * 18446744073709551616). unf. lia.
Qed.

(** Truncated division for every sign, when nothing awkward is negated. *)
Lemma I128_Div_signed a b : ivalid a -> ivalid b -> ival b <> 0 ->
  (ival a < 0 -> ~ awkward (ival a)) -> (ival b < 0 -> ~ awkward (ival b)) ->
  ((ival a < 0 <-> ival b < 0) \/ Z.abs (ival a) < Z.abs (ival b) \/
   ~ awkward (Z.abs (ival a) / Z.abs (ival b))) ->
  exists q, I128_Div a b = Ret q /\ ivalid q /\ ival q = Z.quot (ival a) (ival b).
Proof.
  intros Ha Hb H0 Ma Mb HS.
  destruct (I128_Div_mag a b Ha Hb) as [_ HQ]; try (apply mag_ok_iff; auto; lia).
  destruct (HQ H0) as (q & V & E & R). rewrite R.
  assert (0 <= Z.abs (ival a) / Z.abs (ival b)) by (apply Z.div_pos; lia).
  assert (ival q = Z.quot (Z.abs (ival a)) (Z.abs (ival b))) as EQ by (rewrite Z.quot_div_nonneg by lia; auto).
  assert (forall x y, y <> 0 -> Z.quot x y = if xorb (x <? 0) (y <? 0) then - Z.quot (Z.abs x) (Z.abs y) else Z.quot (Z.abs x) (Z.abs y)) as QA.
  { intros x y Hy. destruct (Z.ltb_spec x 0), (Z.ltb_spec y 0); cbn [xorb];
    rewrite ?(Z.abs_neq x), ?(Z.abs_neq y), ?(Z.abs_eq x), ?(Z.abs_eq y) by lia;
    rewrite ?Z.quot_opp_opp, ?Z.quot_opp_l, ?Z.quot_opp_r by lia; lia. }
  rewrite (QA (ival a) (ival b)) by auto. rewrite <- EQ.
  destruct (xorb (ival a <? 0) (ival b <? 0)) eqn:EX; cbn [andb]; [|exists q; auto].
  destruct (Z.leb_spec (Z.abs (ival b)) (Z.abs (ival a))).
  - assert (~ awkward (ival q)).
    { destruct HS as [HS|[HS|HS]]; [|lia|rewrite E; auto].
      exfalso. destruct (Z.ltb_spec (ival a) 0), (Z.ltb_spec (ival b) 0); cbn in EX; try discriminate; intuition; lia. }
    destruct (neg_value q V ltac:(lia) ltac:(auto)). eauto.
  - exists q. split; auto. split; auto. rewrite EQ, Z.quot_small by lia. lia.
Qed.

(** The remainder's sign follows the *product* of the signs, not the dividend. *)
Lemma I128_Rem_signed a b : ivalid a -> ivalid b -> ival b <> 0 ->
  (ival a < 0 -> ~ awkward (ival a)) -> (ival b < 0 -> ~ awkward (ival b)) ->
  ((ival a < 0 <-> ival b < 0) \/ ~ awkward (Z.abs (ival a) mod Z.abs (ival b))) ->
  exists r, I128_Rem a b = Ret r /\ ivalid r /\
    ival r = if xorb (ival a <? 0) (ival b <? 0)
             then - (Z.abs (ival a) mod Z.abs (ival b)) else Z.abs (ival a) mod Z.abs (ival b).
Proof.
  intros Ha Hb H0 Ma Mb HS.
  destruct (I128_Rem_mag a b Ha Hb) as [_ HQ]; try (apply mag_ok_iff; auto; lia).
  destruct (HQ H0) as (r & V & E & R). rewrite R.
  pose proof (Z.mod_pos_bound (Z.abs (ival a)) (Z.abs (ival b)) ltac:(lia)).
  destruct (xorb (ival a <? 0) (ival b <? 0)) eqn:EX; cbn [andb]; [|exists r; auto].
  assert (~ awkward (ival r)) as NA.
  { destruct HS as [HS|HS]; [|rewrite E; auto].
    exfalso. destruct (Z.ltb_spec (ival a) 0), (Z.ltb_spec (ival b) 0); cbn in EX; try discriminate; intuition; lia. }
  destruct (Z.eqb_spec (ival r) 0) as [E0|E0].
  - exfalso. apply NA. left. now rewrite E0.
  - cbn [negb]. rewrite orb_true_r. destruct (neg_value r V ltac:(lia) NA) as [V' E'].
    exists (I128_Neg r). split; auto. split; auto. lia.
Qed.
