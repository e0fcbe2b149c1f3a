(** Int128Props.v -- theorems C14-C19 (128-bit integers).  Statements use the
    methods of [Int128Model] and the specification [Int128Spec]; proofs are in
    [Int128Proofs].  [uval]/[ival] is the number denoted, [is_u128 r z] says that
    [r] is [z] modulo 2^128 (two's complement for [is_i128]). *)
From Coq Require Import List ZArith Lia.
Import ListNotations.
From Verif Require Import Base IntModel IntSpec IntProofs DecimalModel DecimalSpec
  Int128Model Int128Spec Int128Proofs.
Local Open Scope Z_scope.

Ltac val := unfold uvalid, ivalid; cbn [uhigh ulow ihigh ilow]; lia.

(** [is_u128] and [is_i128] determine the result. *)
Theorem C14_is_u128_functional : forall x y z, is_u128 x z -> is_u128 y z -> x = y.
Proof.
  intros x y z [Vx [k Ex]] [Vy [j Ey]]. apply uval_inj; auto.
  destruct Vx, Vy. unfold uval in *. norm. assert (k = j) by nia. subst. lia.
Qed.
Print Assumptions C14_is_u128_functional.
Theorem C16_is_i128_functional : forall x y z, is_i128 x z -> is_i128 y z -> x = y.
Proof.
  intros x y z [Vx [k Ex]] [Vy [j Ey]]. apply ival_inj; auto.
  destruct Vx, Vy. unfold ival in *. norm. assert (k = j) by nia. subst. lia.
Qed.
Print Assumptions C16_is_i128_functional.

(** C14: U128 Add, Sub and Mul are arithmetic modulo 2^128. *)
Theorem C14_u128_add : forall a b, uvalid a -> uvalid b -> is_u128 (U128_Add a b) (uval a + uval b).
Proof. exact U128_Add_spec. Qed.
Print Assumptions C14_u128_add.
Theorem C14_u128_sub : forall a b, uvalid a -> uvalid b -> is_u128 (U128_Sub a b) (uval a - uval b).
Proof. exact U128_Sub_spec. Qed.
Print Assumptions C14_u128_sub.
Theorem C14_u128_mul : forall a b, uvalid a -> uvalid b -> is_u128 (U128_Mul a b) (uval a * uval b).
Proof. exact U128_Mul_spec. Qed.
Print Assumptions C14_u128_mul.
Example C14_nonvacuous :
  uvalid (mkU 5 (2 ^ 64 - 1)) /\
  U128_Add (mkU 5 (2 ^ 64 - 1)) (mkU 0 1) = mkU 6 0 /\
  U128_Sub (mkU 5 0) (mkU 0 1) = mkU 4 (2 ^ 64 - 1) /\
  U128_Mul (mkU 0 (2 ^ 64 - 1)) (mkU 1 (2 ^ 64 - 1)) = mkU (2 ^ 64 - 3) 1.
Proof. repeat split; try val; vm_compute; reflexivity. Qed.

(** C15: U128 Div and Rem. *)
Theorem C15_u128_div : forall a b, uvalid a -> uvalid b ->
  (uval b = 0 -> U128_Div a b = Panic) /\
  (uval b <> 0 -> exists q, U128_Div a b = Ret q /\ uvalid q /\ uval q = uval a / uval b).
Proof. exact U128_Div_spec. Qed.
Print Assumptions C15_u128_div.
Theorem C15_u128_rem : forall a b, uvalid a -> uvalid b ->
  (uval b = 0 -> U128_Rem a b = Panic) /\
  (uval b <> 0 -> exists r, U128_Rem a b = Ret r /\ uvalid r /\ uval r = uval a mod uval b).
Proof. exact U128_Rem_spec. Qed.
Print Assumptions C15_u128_rem.
Theorem C15_u128_division_identity : forall a b q r, uvalid a -> uvalid b ->
  U128_Div a b = Ret q -> U128_Rem a b = Ret r ->
  uval a = uval q * uval b + uval r /\ 0 <= uval r < uval b.
Proof.
  intros a b q r Ha Hb HQ HR.
  destruct (U128_Div_spec a b Ha Hb) as [DP DQ], (U128_Rem_spec a b Ha Hb) as [RP RQ].
  destruct (Z.eq_dec (uval b) 0) as [E|E]. { rewrite DP in HQ by auto. discriminate. }
  destruct (DQ E) as (q' & E1 & _ & V1), (RQ E) as (r' & E2 & _ & V2).
  rewrite E1 in HQ. injection HQ as <-. rewrite E2 in HR. injection HR as <-.
  assert (0 < uval b) by (destruct Hb; unfold uval in *; lia).
  rewrite V1, V2. pose proof (Z.div_mod (uval a) (uval b) E).
  pose proof (Z.mod_pos_bound (uval a) (uval b)). lia.
Qed.
Print Assumptions C15_u128_division_identity.
Example C15_nonvacuous :
  U128_Div (mkU 7 3) (mkU 0 10) = Ret (mkU 0 12912720851596686131) /\
  U128_Rem (mkU 7 3) (mkU 0 10) = Ret (mkU 0 5) /\ U128_Div (mkU 7 3) (mkU 0 0) = Panic.
Proof. repeat split; vm_compute; reflexivity. Qed.

(** C16: I128 Add, conversions and comparison. *)
Theorem C16_i128_add : forall a b, ivalid a -> ivalid b -> is_i128 (I128_Add a b) (ival a + ival b).
Proof. exact I128_Add_spec. Qed.
Print Assumptions C16_i128_add.
Theorem C16_i128_from_i64 : forall x, in_range I64 x ->
  ivalid (I128_FromI64 x) /\ ival (I128_FromI64 x) = x.
Proof. exact I128_FromI64_spec. Qed.
Print Assumptions C16_i128_from_i64.
Theorem C16_from_u64 : forall x, in_range U64 x ->
  ivalid (I128_FromU64 x) /\ ival (I128_FromU64 x) = x /\
  uvalid (U128_FromU64 x) /\ uval (U128_FromU64 x) = x.
Proof.
  intros x H. unfold in_range in H; cbn [lowest highest] in H.
  unfold I128_FromU64, U128_FromU64, ivalid, uvalid, ival, uval; cbn [ihigh ilow uhigh ulow]. lia.
Qed.
Print Assumptions C16_from_u64.
Theorem C16_i128_cmp : forall a b, ivalid a -> ivalid b ->
  I128_Cmp a b = match Z.compare (ival a) (ival b) with Lt => Less | Eq => Equal | Gt => Greater end.
Proof. exact I128_Cmp_spec. Qed.
Print Assumptions C16_i128_cmp.
Theorem C16_u128_cmp : forall a b, uvalid a -> uvalid b ->
  U128_Cmp a b = match Z.compare (uval a) (uval b) with Lt => Less | Eq => Equal | Gt => Greater end.
Proof. exact U128_Cmp_spec. Qed.
Print Assumptions C16_u128_cmp.
Example C16_nonvacuous :
  I128_FromI64 (-2) = mkI (-1) (2 ^ 64 - 2) /\ I128_FromI64 (- 2 ^ 63) = mkI (-1) (2 ^ 63) /\
  I128_Add (I128_FromI64 (-2)) (I128_FromI64 5) = mkI 0 3 /\
  I128_Cmp (I128_FromI64 (-2)) (I128_FromI64 5) = Less /\ U128_Cmp (mkU 2 1) (mkU 1 2) = Greater.
Proof. repeat split; vm_compute; reflexivity. Qed.

(** C17: I128 Neg, Sub, Mul, Abs, IsPositive, IsNegative.  False in general:
    negation mishandles the carry when the low 64 bits are all zeros or all ones
    ([awkward]).  Exactly what happens: *)
Theorem C17_i128_neg_partial : forall a, ivalid a ->
  (is_i128 (I128_Neg a) (- ival a) <-> ~ awkward (ival a)).
Proof. intros a H. rewrite <- neg_ok_awkward by auto. now apply I128_Neg_correct_iff. Qed.
Print Assumptions C17_i128_neg_partial.
Theorem C17_i128_neg_characterised : forall a, ivalid a ->
  is_i128 (I128_Neg a)
    (- ival a + (if ival a mod 2 ^ 64 =? 0 then - 2 ^ 64
                 else if ival a mod 2 ^ 64 =? 2 ^ 64 - 1 then 2 ^ 64 - 1 else 0)).
Proof. intros a H. rewrite ival_low by auto. now apply I128_Neg_char. Qed.
Print Assumptions C17_i128_neg_characterised.
Theorem C17_i128_sub_partial : forall a b, ivalid a -> ivalid b -> ~ awkward (ival b) ->
  is_i128 (I128_Sub a b) (ival a - ival b).
Proof. intros. apply I128_Sub_ok; auto. now apply neg_ok_awkward. Qed.
Print Assumptions C17_i128_sub_partial.
Theorem C17_i128_sub_characterised : forall a b, ivalid a -> ivalid b ->
  is_i128 (I128_Sub a b)
    (ival a - ival b + (if ival b mod 2 ^ 64 =? 0 then - 2 ^ 64
                 else if ival b mod 2 ^ 64 =? 2 ^ 64 - 1 then 2 ^ 64 - 1 else 0)).
Proof. intros a b Ha Hb. rewrite ival_low by auto. now apply I128_Sub_char. Qed.
Print Assumptions C17_i128_sub_characterised.
Theorem C17_i128_mul_partial : forall a b, ivalid a -> ivalid b ->
  (ival a < 0 -> ~ awkward (ival a)) -> (ival b < 0 -> ~ awkward (ival b)) ->
  ((ival a < 0 <-> ival b < 0) \/ ~ awkward (Z.abs (ival a) * Z.abs (ival b))) ->
  is_i128 (I128_Mul a b) (ival a * ival b).
Proof. exact I128_Mul_partial. Qed.
Print Assumptions C17_i128_mul_partial.
(** For instance every product of a negative and a non-negative number that is a
    multiple of 2^64 (zero included) comes out 2^64 too small. *)
Theorem C17_i128_mul_characterised : forall a b, ivalid a -> ivalid b ->
  (ival a < 0 -> ~ awkward (ival a)) -> (ival b < 0 -> ~ awkward (ival b)) ->
  (ival a < 0 <-> ~ ival b < 0) ->
  (Z.abs (ival a) * Z.abs (ival b)) mod 2 ^ 64 = 0 ->
  is_i128 (I128_Mul a b) (ival a * ival b - 2 ^ 64).
Proof. exact I128_Mul_awkward. Qed.
Print Assumptions C17_i128_mul_characterised.
Theorem C17_i128_abs_partial : forall a, ivalid a -> (ival a < 0 -> ~ awkward (ival a)) ->
  ivalid (I128_Abs a) /\ ival (I128_Abs a) = Z.abs (ival a).
Proof. exact I128_Abs_partial. Qed.
Print Assumptions C17_i128_abs_partial.
Theorem C17_i128_is_negative : forall a, ivalid a -> (I128_IsNegative a = true <-> ival a < 0).
Proof. exact I128_IsNegative_spec. Qed.
Print Assumptions C17_i128_is_negative.
(** IsPositive only looks at the high word. *)
Theorem C17_i128_is_positive_characterised : forall a, ivalid a ->
  (I128_IsPositive a = true <-> 2 ^ 64 <= ival a).
Proof. exact I128_IsPositive_char. Qed.
Print Assumptions C17_i128_is_positive_characterised.
Theorem C17_i128_refuted :
  (* -0 = -2^64, -(-1) = 2^64, 0 - 0 = -2^64, (-2)*0 = -2^64, |-1| = 2^64, 1 is not positive *)
  ival (I128_Neg (I128_FromI64 0)) = - 2 ^ 64 /\
  ival (I128_Neg (I128_FromI64 (-1))) = 2 ^ 64 /\
  ival (I128_Sub (I128_FromI64 0) (I128_FromI64 0)) = - 2 ^ 64 /\
  ival (I128_Mul (I128_FromI64 (-2)) (I128_FromI64 0)) = - 2 ^ 64 /\
  ival (I128_Abs (I128_FromI64 (-1))) = 2 ^ 64 /\
  I128_IsPositive (I128_FromI64 1) = false.
Proof. repeat split; vm_compute; reflexivity. Qed.
Print Assumptions C17_i128_refuted.
Example C17_nonvacuous :
  ivalid (I128_FromI64 (-6)) /\ ~ awkward (ival (I128_FromI64 (-6))) /\
  ~ awkward (Z.abs (-6) * Z.abs 7) /\
  ival (I128_Neg (I128_FromI64 (-6))) = 6 /\
  ival (I128_Mul (I128_FromI64 (-6)) (I128_FromI64 7)) = -42 /\
  ival (I128_Sub (I128_FromI64 (-6)) (I128_FromI64 7)) = -13 /\
  ival (I128_Abs (I128_FromI64 (-6))) = 6.
Proof.
  split; [change (I128_FromI64 (-6)) with (mkI (-1) (2 ^ 64 - 6)); val|]. split; [vm_compute; intros [H|H]; discriminate|].
  split; [vm_compute; intros [H|H]; discriminate|]. repeat split; vm_compute; reflexivity.
Qed.

(** C18: I128 Div and Rem.  True for non-negative operands, and for any signs
    when no awkward value is negated -- except that the remainder's sign is the
    product of the signs, so the identity fails for a negative divisor that does
    not divide. *)
Theorem C18_i128_div_nonneg_partial : forall a b, ivalid a -> ivalid b -> 0 <= ival a -> 0 <= ival b ->
  (ival b = 0 -> I128_Div a b = Panic) /\
  (ival b <> 0 -> exists q, I128_Div a b = Ret q /\ ivalid q /\ ival q = ival a / ival b).
Proof. exact I128_Div_nonneg. Qed.
Print Assumptions C18_i128_div_nonneg_partial.
Theorem C18_i128_rem_nonneg_partial : forall a b, ivalid a -> ivalid b -> 0 <= ival a -> 0 <= ival b ->
  (ival b = 0 -> I128_Rem a b = Panic) /\
  (ival b <> 0 -> exists r, I128_Rem a b = Ret r /\ ivalid r /\ ival r = ival a mod ival b).
Proof. exact I128_Rem_nonneg. Qed.
Print Assumptions C18_i128_rem_nonneg_partial.
Theorem C18_i128_div_signed_partial : forall a b, ivalid a -> ivalid b -> ival b <> 0 ->
  (ival a < 0 -> ~ awkward (ival a)) -> (ival b < 0 -> ~ awkward (ival b)) ->
  ((ival a < 0 <-> ival b < 0) \/ Z.abs (ival a) < Z.abs (ival b) \/
   ~ awkward (Z.abs (ival a) / Z.abs (ival b))) ->
  exists q, I128_Div a b = Ret q /\ ivalid q /\ ival q = Z.quot (ival a) (ival b).
Proof. exact I128_Div_signed. Qed.
Print Assumptions C18_i128_div_signed_partial.
Theorem C18_i128_rem_characterised : forall a b, ivalid a -> ivalid b -> ival b <> 0 ->
  (ival a < 0 -> ~ awkward (ival a)) -> (ival b < 0 -> ~ awkward (ival b)) ->
  ((ival a < 0 <-> ival b < 0) \/ ~ awkward (Z.abs (ival a) mod Z.abs (ival b))) ->
  exists r, I128_Rem a b = Ret r /\ ivalid r /\
    ival r = if xorb (ival a <? 0) (ival b <? 0)
             then - (Z.abs (ival a) mod Z.abs (ival b)) else Z.abs (ival a) mod Z.abs (ival b).
Proof. exact I128_Rem_signed. Qed.
Print Assumptions C18_i128_rem_characterised.
Theorem C18_i128_zero_divisor_partial : forall a b, ivalid a -> ivalid b ->
  (ival a < 0 -> ~ awkward (ival a)) -> ival b = 0 -> I128_Div a b = Panic /\ I128_Rem a b = Panic.
Proof.
  intros a b Ha Hb Hn H0. assert (mag_ok b) by (apply mag_ok_iff; auto; lia).
  apply mag_ok_iff in Hn; auto. split; [apply I128_Div_mag|apply I128_Rem_mag]; auto.
Qed.
Print Assumptions C18_i128_zero_divisor_partial.
Theorem C18_i128_refuted :
  (* 5 % -10 = -5 although 5 / -10 = 0 *)
  (exists q r, I128_Div (I128_FromI64 5) (I128_FromI64 (-10)) = Ret q /\
     I128_Rem (I128_FromI64 5) (I128_FromI64 (-10)) = Ret r /\ ival q = 0 /\ ival r = -5) /\
  (* -1 / 1 = -2^64 *)
  (exists q, I128_Div (I128_FromI64 (-1)) (I128_FromI64 1) = Ret q /\ ival q <> -1) /\
  (* division by zero that returns 0 *)
  I128_Div (mkI (- 2 ^ 63) (2 ^ 64 - 1)) (mkI 0 0) = Ret (mkI 0 0).
Proof.
  split; [|split].
  - eexists _, _. split; [vm_compute; reflexivity|]. split; [vm_compute; reflexivity|]. split; vm_compute; reflexivity.
  - eexists. split; [vm_compute; reflexivity|]. vm_compute. discriminate.
  - vm_compute. reflexivity.
Qed.
Print Assumptions C18_i128_refuted.
Example C18_nonvacuous :
  I128_Div (I128_FromI64 (-42)) (I128_FromI64 5) = Ret (I128_FromI64 (-8)) /\
  I128_Rem (I128_FromI64 (-42)) (I128_FromI64 5) = Ret (I128_FromI64 (-2)) /\
  I128_Div (I128_FromI64 42) (I128_FromI64 5) = Ret (I128_FromI64 8) /\
  ~ awkward (ival (I128_FromI64 (-42))) /\ ~ awkward (42 / 5) /\ ~ awkward (42 mod 5) /\
  I128_Div (I128_FromI64 (-42)) (I128_FromI64 0) = Panic.
Proof.
  repeat split; try (vm_compute; reflexivity); vm_compute; intros [H|H]; discriminate.
Qed.

(** C19: 128-bit shifts.  Right for a shift by one; for other counts only one
    fixed bit crosses between the words. *)
Theorem C19_shl_one_partial :
  (forall a, uvalid a -> is_u128 (U128_Shl a (mkU 0 1)) (uval a * 2)) /\
  (forall a, ivalid a -> is_i128 (I128_Shl a (mkI 0 1)) (ival a * 2)).
Proof.
  split; intros a H; rewrite Z.mul_comm; [exact (U128_Shl1 a H)|exact (I128_Shl1 a H)].
Qed.
Print Assumptions C19_shl_one_partial.
Theorem C19_shr_one_partial :
  (forall a, uvalid a -> uvalid (U128_Shr a (mkU 0 1)) /\ uval (U128_Shr a (mkU 0 1)) = uval a / 2) /\
  (forall a, ivalid a -> ivalid (I128_Shr a (mkI 0 1)) /\ ival (I128_Shr a (mkI 0 1)) = ival a / 2).
Proof. split; intros a H; [exact (U128_Shr1 a H)|exact (I128_Shr1 a H)]. Qed.
Print Assumptions C19_shr_one_partial.
(** A left shift by n < 64 is right exactly when the bits leaving the low word
    equal that word's top bit. *)
Theorem C19_u128_shl_characterised : forall a n, uvalid a -> uvalid n ->
  (ulow n < 64 -> (is_u128 (U128_Shl a n) (uval a * 2 ^ ulow n) <->
                   ulow a * 2 ^ ulow n / 2 ^ 64 = ulow a / 2 ^ 63) /\
     is_u128 (U128_Shl a n)
       (uval a * 2 ^ ulow n + (ulow a / 2 ^ 63 - ulow a * 2 ^ ulow n / 2 ^ 64) * 2 ^ 64)) /\
  (64 <= ulow n -> uvalid (U128_Shl a n) /\ uval (U128_Shl a n) = ulow a / 2 ^ 63 * 2 ^ 64).
Proof.
  intros a n Ha [_ Hn]. split; intros H.
  - split; [apply U128_Shl_correct_iff|apply U128_Shl_small]; auto; lia.
  - now apply U128_Shl_big.
Qed.
Print Assumptions C19_u128_shl_characterised.
Theorem C19_i128_shl_characterised : forall a n, ivalid a -> ivalid n ->
  (ilow n < 64 -> (is_i128 (I128_Shl a n) (ival a * 2 ^ ilow n) <->
                   ilow a * 2 ^ ilow n / 2 ^ 64 = ilow a / 2 ^ 63) /\
     is_i128 (I128_Shl a n)
       (ival a * 2 ^ ilow n + (ilow a / 2 ^ 63 - ilow a * 2 ^ ilow n / 2 ^ 64) * 2 ^ 64)) /\
  (64 <= ilow n -> ivalid (I128_Shl a n) /\ ival (I128_Shl a n) = ilow a / 2 ^ 63 * 2 ^ 64).
Proof.
  intros a n Ha [_ Hn]. split; intros H.
  - split; [apply I128_Shl_correct_iff|apply I128_Shl_small]; auto; lia.
  - now apply I128_Shl_big.
Qed.
Print Assumptions C19_i128_shl_characterised.
(** A right shift by n < 64 is right when the bits crossing from the high word are
    zero, and what it computes otherwise. *)
Theorem C19_u128_shr_partial : forall a n, uvalid a -> 0 <= ulow n < 64 ->
  Z.odd (uhigh a) = false -> uhigh a mod 2 ^ ulow n = 0 ->
  uvalid (U128_Shr a n) /\ uval (U128_Shr a n) = uval a / 2 ^ ulow n.
Proof. exact U128_Shr_no_cross. Qed.
Print Assumptions C19_u128_shr_partial.
Theorem C19_i128_shr_partial : forall a n, ivalid a -> 0 <= ilow n < 64 ->
  Z.odd (ihigh a) = false -> ihigh a mod 2 ^ ilow n = 0 ->
  ivalid (I128_Shr a n) /\ ival (I128_Shr a n) = ival a / 2 ^ ilow n.
Proof. exact I128_Shr_no_cross. Qed.
Print Assumptions C19_i128_shr_partial.
Theorem C19_u128_shr_characterised : forall a n, uvalid a -> uvalid n ->
  (ulow n < 64 -> uval (U128_Shr a n) = uhigh a / 2 ^ ulow n * 2 ^ 64 + ulow a / 2 ^ ulow n
       + (if Z.odd (uhigh a) && (ulow a / 2 ^ ulow n <? 2 ^ 63) then 2 ^ 63 else 0)%bool) /\
  (64 <= ulow n -> uval (U128_Shr a n) = (uhigh a mod 2) * 2 ^ 63).
Proof.
  intros a n Ha [_ Hn]. split; intros H.
  - apply U128_Shr_small; auto; lia.
  - now apply U128_Shr_big.
Qed.
Print Assumptions C19_u128_shr_characterised.
Theorem C19_i128_shr_characterised : forall a n, ivalid a -> ivalid n ->
  (ilow n < 64 -> ival (I128_Shr a n) = ihigh a / 2 ^ ilow n * 2 ^ 64 + ilow a / 2 ^ ilow n
       + (if Z.odd (ihigh a) && (ilow a / 2 ^ ilow n <? 2 ^ 63) then 2 ^ 63 else 0)%bool) /\
  (64 <= ilow n -> ival (I128_Shr a n) = (if ival a <? 0 then - 2 ^ 64 else 0) + (ihigh a mod 2) * 2 ^ 63).
Proof.
  intros a n Ha [_ Hn]. split; intros H.
  - apply I128_Shr_small; auto; lia.
  - now apply I128_Shr_big.
Qed.
Print Assumptions C19_i128_shr_characterised.
Theorem C19_shift_refuted :
  (* 3*2^63 << 0 gains a bit; 2^63 << 2 = 2^64 instead of 2^65; 1 << 64 = 0; 2^64 >> 64 = 2^63; 2^64 >> 2 = 2^63 *)
  uval (U128_Shl (mkU 1 (2 ^ 63)) (mkU 0 0)) = 5 * 2 ^ 63 /\
  uval (U128_Shl (mkU 0 (2 ^ 63)) (mkU 0 2)) = 2 ^ 64 /\
  uval (U128_Shl (mkU 0 1) (mkU 0 64)) = 0 /\
  uval (U128_Shr (mkU 1 0) (mkU 0 64)) = 2 ^ 63 /\
  uval (U128_Shr (mkU 1 0) (mkU 0 2)) = 2 ^ 63.
Proof. repeat split; vm_compute; reflexivity. Qed.
Print Assumptions C19_shift_refuted.
Example C19_nonvacuous :
  uvalid (mkU 3 (2 ^ 63 + 5)) /\ uval (U128_Shl (mkU 3 (2 ^ 63 + 5)) (mkU 0 1)) = (3 * 2 ^ 64 + 2 ^ 63 + 5) * 2 /\
  uval (U128_Shr (mkU 8 7) (mkU 0 3)) = 2 ^ 64 /\ Z.odd 8 = false /\ 8 mod 2 ^ 3 = 0 /\
  ival (I128_Shr (mkI (-8) 16) (mkI 0 3)) = - 2 ^ 64 + 2.
Proof. repeat split; try val; vm_compute; reflexivity. Qed.
