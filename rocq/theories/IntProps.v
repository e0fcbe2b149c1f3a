(** IntProps.v -- theorems C01-C13 (integer methods).  Statements only use the
    methods of [IntModel] and the small specification [IntSpec]; the proofs are
    in [IntProofs]. *)
From Coq Require Import ZArith Lia.
From Verif Require Import Base IntModel IntSpec IntProofs.
Local Open Scope Z_scope.

Ltac rng := unfold in_range; cbn; lia.

(** C01: CheckedAdd is exact. *)
Theorem C01_checked_add_exact : forall t a b,
  in_range t a -> in_range t b -> exact t (a + b) (CheckedAdd t a b).
Proof. exact checked_add_exact. Qed.
Print Assumptions C01_checked_add_exact.
Example C01_nonvacuous :
  in_range I8 100 /\ in_range I8 28 /\ CheckedAdd I8 100 27 = Some 127 /\
  CheckedAdd I8 100 28 = None /\ CheckedAdd I8 (-100) (-29) = None /\
  CheckedAdd U64 18446744073709551615 1 = None.
Proof. repeat split; try rng; reflexivity. Qed.

(** C02: SaturatingAdd clamps. *)
Theorem C02_saturating_add_clamps : forall t a b,
  in_range t a -> in_range t b -> SaturatingAdd t a b = clamp t (a + b).
Proof. exact saturating_add_clamps. Qed.
Print Assumptions C02_saturating_add_clamps.
Example C02_nonvacuous :
  in_range I8 (-100) /\ SaturatingAdd I8 (-100) (-100) = -128 /\ SaturatingAdd U8 200 100 = 255
  /\ SaturatingAdd ISize 3 4 = 7.
Proof. repeat split; try rng; reflexivity. Qed.

(** C03: Add, Sub, WrappingAdd, WrappingSub (and the Assign forms) wrap. *)
Theorem C03_add_sub_wrap : forall t a b,
  in_range t a -> in_range t b ->
  wraps_to t (a + b) (Add t a b) /\ wraps_to t (a + b) (AddAssign t a b) /\
  wraps_to t (a + b) (WrappingAdd t a b) /\
  wraps_to t (a - b) (Sub t a b) /\ wraps_to t (a - b) (SubAssign t a b) /\
  wraps_to t (a - b) (WrappingSub t a b).
Proof.
  intros. repeat apply conj; try apply wrap_wraps.
  all: try (now apply wrapping_add_wraps).
  all: apply wrap_range || apply wrap_cong.
Qed.
Print Assumptions C03_add_sub_wrap.
(** [wraps_to] determines the result. *)
Theorem C03_wraps_to_functional : forall t z r1 r2, wraps_to t z r1 -> wraps_to t z r2 -> r1 = r2.
Proof. exact wraps_to_unique. Qed.
Print Assumptions C03_wraps_to_functional.
Example C03_nonvacuous :
  WrappingAdd U8 200 100 = 44 /\ WrappingAdd I8 100 100 = -56 /\ Sub U16 0 1 = 65535.
Proof. repeat split. Qed.

(** C04: CheckedSub.  The full property (exactness for all ten types) is false
    of the code, see [C04_checked_sub_refuted].  True parts: never a wrong value
    (soundness, all types), exact for the unsigned types. *)
Theorem C04_checked_sub_sound_partial : forall t a b,
  in_range t a -> in_range t b -> sound t (a - b) (CheckedSub t a b).
Proof. exact checked_sub_sound. Qed.
Print Assumptions C04_checked_sub_sound_partial.
Theorem C04_checked_sub_unsigned_partial : forall t a b,
  signed t = false -> in_range t a -> in_range t b -> exact t (a - b) (CheckedSub t a b).
Proof. exact checked_sub_unsigned_exact. Qed.
Print Assumptions C04_checked_sub_unsigned_partial.
(** What the signed versions do: I8..I64 also refuse when a+b overflows ... *)
Theorem C04_checked_sub_signed_characterised : forall t a b,
  signed t = true -> t <> ISize -> in_range t a -> in_range t b ->
  (in_range t (a - b) /\ in_range t (a + b) -> CheckedSub t a b = Some (a - b)) /\
  (~ (in_range t (a - b) /\ in_range t (a + b)) -> CheckedSub t a b = None).
Proof. exact checked_sub_narrow. Qed.
Print Assumptions C04_checked_sub_signed_characterised.
(** ... and ISize refuses on the 32-bit bound in the direction of the subtraction. *)
Theorem C04_checked_sub_isize_characterised : forall a b,
  in_range ISize a -> in_range ISize b ->
  CheckedSub ISize a b =
    if ((0 <? b) && (a - b <? lowest I32) || (b <? 0) && (highest I32 <? a - b))%bool
    then None else Some (a - b).
Proof. exact checked_sub_ISize. Qed.
Print Assumptions C04_checked_sub_isize_characterised.
Theorem C04_checked_sub_refuted : forall t, signed t = true ->
  exists a b, in_range t a /\ in_range t b /\ in_range t (a - b) /\ CheckedSub t a b = None.
Proof.
  intros t Hs. destruct t; try discriminate;
    [ exists (-2147483648), 1 | exists 127, 1 | exists 32767, 1 | exists 2147483647, 1
    | exists 9223372036854775807, 1 ]; repeat split; try rng; reflexivity.
Qed.
Print Assumptions C04_checked_sub_refuted.
Example C04_nonvacuous :
  in_range U8 3 /\ CheckedSub U8 3 4 = None /\ CheckedSub U8 4 3 = Some 1 /\
  CheckedSub I8 (-100) 27 = Some (-127) /\ CheckedSub I8 (-100) 29 = None.
Proof. repeat split; try rng; reflexivity. Qed.

(** C05: SaturatingSub.  False for ISize ([C05_saturating_sub_refuted]); true for
    the nine other types. *)
Theorem C05_saturating_sub_clamps_partial : forall t a b,
  t <> ISize -> in_range t a -> in_range t b -> SaturatingSub t a b = clamp t (a - b).
Proof. exact saturating_sub_clamps. Qed.
Print Assumptions C05_saturating_sub_clamps_partial.
Theorem C05_saturating_sub_isize_characterised : forall a b,
  in_range ISize a -> in_range ISize b ->
  SaturatingSub ISize a b =
    if ((0 <? b) && (a - b <? lowest I32) || (b <? 0) && (highest I32 <? a - b))%bool
    then (if a <? 0 then lowest ISize else highest ISize) else a - b.
Proof. exact saturating_sub_ISize. Qed.
Print Assumptions C05_saturating_sub_isize_characterised.
Theorem C05_saturating_sub_refuted : exists a b,
  in_range ISize a /\ in_range ISize b /\ in_range ISize (a - b) /\
  SaturatingSub ISize a b = highest ISize /\ a - b = -2147483649.
Proof. exists 0, 2147483649. repeat split; try rng; reflexivity. Qed.
Print Assumptions C05_saturating_sub_refuted.
Example C05_nonvacuous :
  SaturatingSub I8 (-100) 100 = -128 /\ SaturatingSub I8 100 (-100) = 127 /\
  SaturatingSub U32 3 4 = 0 /\ SaturatingSub I8 (-127) 1 = -128.
Proof. repeat split. Qed.

(** C06: CheckedMul.  Exactness is false for the five signed types and USize;
    true: soundness for all types, exactness for U8..U64. *)
Theorem C06_checked_mul_sound_partial : forall t a b,
  in_range t a -> in_range t b -> sound t (a * b) (CheckedMul t a b).
Proof. exact checked_mul_sound. Qed.
Print Assumptions C06_checked_mul_sound_partial.
Theorem C06_checked_mul_unsigned_partial : forall t a b,
  signed t = false -> t <> USize -> in_range t a -> in_range t b ->
  exact t (a * b) (CheckedMul t a b).
Proof. exact checked_mul_unsigned. Qed.
Print Assumptions C06_checked_mul_unsigned_partial.
Theorem C06_checked_mul_signed_characterised : forall t a b,
  signed t = true -> in_range t a -> in_range t b ->
  (in_range t (a * b) /\ (0 < a <-> 0 < b) -> CheckedMul t a b = Some (a * b)) /\
  (~ (in_range t (a * b) /\ (0 < a <-> 0 < b)) -> CheckedMul t a b = None).
Proof. exact checked_mul_signed. Qed.
Print Assumptions C06_checked_mul_signed_characterised.
Theorem C06_checked_mul_usize_characterised : forall a b,
  in_range USize a -> in_range USize b ->
  (in_range U32 (a * b) -> CheckedMul USize a b = Some (a * b)) /\
  (~ in_range U32 (a * b) -> CheckedMul USize a b = None).
Proof. exact checked_mul_USize. Qed.
Print Assumptions C06_checked_mul_usize_characterised.
(** e.g. 2 * 0 and 3 * (-2) are refused in every signed type, 65536 * 65536 in USize. *)
Theorem C06_checked_mul_refuted :
  (forall t, signed t = true -> CheckedMul t 2 0 = None /\ CheckedMul t 3 (-2) = None) /\
  CheckedMul USize 65536 65536 = None.
Proof. split; [intros []; try discriminate; split|]; reflexivity. Qed.
Print Assumptions C06_checked_mul_refuted.
Example C06_nonvacuous :
  CheckedMul I8 11 11 = Some 121 /\ CheckedMul I8 12 11 = None /\ CheckedMul I8 (-11) (-11) = Some 121
  /\ CheckedMul U16 256 256 = None /\ CheckedMul U16 255 257 = Some 65535.
Proof. repeat split. Qed.

(** C07: SaturatingMul. *)
Theorem C07_saturating_mul_unsigned_partial : forall t a b,
  signed t = false -> t <> USize -> in_range t a -> in_range t b ->
  SaturatingMul t a b = clamp t (a * b).
Proof. exact saturating_mul_unsigned. Qed.
Print Assumptions C07_saturating_mul_unsigned_partial.
Theorem C07_saturating_mul_positive_partial : forall t a b,
  t <> USize -> in_range t a -> in_range t b -> 0 < a -> 0 < b ->
  SaturatingMul t a b = clamp t (a * b).
Proof.
  intros t a b Hn Ha Hb Pa Pb. destruct (signed t) eqn:Hs.
  - destruct (saturating_mul_signed t a b Hs Ha Hb) as [H1 H2].
    destruct (in_range_dec t (a * b)).
    + rewrite H1 by tauto. unfold clamp, in_range in *. lia.
    + rewrite H2 by tauto. bounds t Hs. unfold clamp, in_range in *.
      destruct (Z.ltb_spec a 0); nia.
  - now apply saturating_mul_unsigned.
Qed.
Print Assumptions C07_saturating_mul_positive_partial.
Theorem C07_saturating_mul_signed_characterised : forall t a b,
  signed t = true -> in_range t a -> in_range t b ->
  (in_range t (a * b) /\ (0 < a <-> 0 < b) -> SaturatingMul t a b = a * b) /\
  (~ (in_range t (a * b) /\ (0 < a <-> 0 < b)) ->
     SaturatingMul t a b = if a <? 0 then lowest t else highest t).
Proof. exact saturating_mul_signed. Qed.
Print Assumptions C07_saturating_mul_signed_characterised.
Theorem C07_saturating_mul_usize_characterised : forall a b,
  in_range USize a -> in_range USize b ->
  (in_range U32 (a * b) -> SaturatingMul USize a b = a * b) /\
  (~ in_range U32 (a * b) -> SaturatingMul USize a b = highest USize).
Proof. exact saturating_mul_USize. Qed.
Print Assumptions C07_saturating_mul_usize_characterised.
Theorem C07_saturating_mul_refuted :
  (forall t, signed t = true -> SaturatingMul t 2 0 = highest t) /\
  (forall t, signed t = true -> SaturatingMul t 2 (-3) = highest t) /\
  (forall t, signed t = true -> SaturatingMul t (lowest t) (lowest t) = lowest t) /\
  SaturatingMul USize 65536 65536 = highest USize.
Proof.
  repeat split; try reflexivity; intros [] H; try discriminate; reflexivity.
Qed.
Print Assumptions C07_saturating_mul_refuted.
Example C07_nonvacuous :
  SaturatingMul U8 16 16 = 255 /\ SaturatingMul U8 15 17 = 255 /\ SaturatingMul U8 15 16 = 240 /\
  SaturatingMul I8 12 11 = 127 /\ SaturatingMul I8 (-11) (-11) = 121.
Proof. repeat split. Qed.

(** C08: Mul (all ten types) and WrappingMul (all but ISize) wrap. *)
Theorem C08_mul_wraps : forall t a b,
  wraps_to t (a * b) (Mul t a b) /\ wraps_to t (a * b) (MulAssign t a b).
Proof. intros. split; apply wrap_wraps. Qed.
Print Assumptions C08_mul_wraps.
Theorem C08_wrapping_mul_partial : forall t a b,
  t <> ISize -> wraps_to t (a * b) (WrappingMul t a b).
Proof. exact wrapping_mul_wraps. Qed.
Print Assumptions C08_wrapping_mul_partial.
(** ISize.WrappingMul is right exactly when the wrapped product is at least both
    operands; otherwise its top bit is flipped. *)
Theorem C08_wrapping_mul_isize_characterised : forall a b r,
  wraps_to ISize (a * b) r ->
  (a <= r /\ b <= r -> WrappingMul ISize a b = r) /\
  (~ (a <= r /\ b <= r) -> WrappingMul ISize a b = if r <? 0 then r + 2^63 else r - 2^63).
Proof. exact wrapping_mul_ISize. Qed.
Print Assumptions C08_wrapping_mul_isize_characterised.
Theorem C08_wrapping_mul_isize_correct_iff : forall a b r,
  wraps_to ISize (a * b) r -> (WrappingMul ISize a b = r <-> a <= r /\ b <= r).
Proof. exact wrapping_mul_ISize_correct_iff. Qed.
Print Assumptions C08_wrapping_mul_isize_correct_iff.
Theorem C08_wrapping_mul_refuted : WrappingMul ISize 2 (-3) = 9223372036854775802.
Proof. reflexivity. Qed.
Print Assumptions C08_wrapping_mul_refuted.
Example C08_nonvacuous :
  WrappingMul I8 100 3 = 44 /\ WrappingMul ISize 3 4 = 12 /\ Mul U8 16 17 = 16
  /\ wraps_to ISize (3 * 4) 12 /\ (3 <= 12 /\ 4 <= 12).
Proof. repeat split; try reflexivity; try rng; try lia. exists 0; reflexivity. Qed.

(** C09: division. *)
Theorem C09_div_panics_iff_zero : forall t a b,
  (Div t a b = Panic <-> b = 0) /\ (WrappingDiv t a b = Panic <-> b = 0) /\
  (DivAssign t a b = Panic <-> b = 0).
Proof.
  intros. unfold Div, WrappingDiv, DivAssign.
  destruct (Z.eqb_spec b 0); repeat split; intros; auto; try discriminate; contradiction.
Qed.
Print Assumptions C09_div_panics_iff_zero.
Theorem C09_div_truncates : forall t a b,
  in_range t a -> in_range t b -> b <> 0 ->
  exists r, Div t a b = Ret r /\ WrappingDiv t a b = Ret r /\ DivAssign t a b = Ret r /\
    (a = lowest t /\ b = -1 /\ signed t = true -> r = lowest t) /\
    (~ (a = lowest t /\ b = -1 /\ signed t = true) -> r = Z.quot a b).
Proof.
  intros t a b Ha Hb H0. unfold Div, WrappingDiv, DivAssign.
  destruct (Z.eqb_spec b 0); [contradiction|].
  eexists. repeat split.
  - intros (-> & -> & Hs). apply wrap_unique. now apply min_quot_m1.
  - intros HN. apply wrap_id. apply quot_in_range; auto. tauto.
Qed.
Print Assumptions C09_div_truncates.
Theorem C09_checked_div_exact : forall t a b,
  in_range t a -> in_range t b ->
  (b = 0 -> CheckedDiv t a b = Ret None) /\
  (b <> 0 -> exists r, CheckedDiv t a b = Ret r /\ exact t (Z.quot a b) r).
Proof. exact checked_div_exact. Qed.
Print Assumptions C09_checked_div_exact.
Theorem C09_saturating_div : forall t a b,
  in_range t a -> in_range t b ->
  (b <> 0 -> SaturatingDiv t a b = Ret (clamp t (Z.quot a b))) /\
  (b = 0 -> SaturatingDiv t a b =
            Ret (if signed t then (if a <? 0 then lowest t else highest t) else 0)).
Proof. exact saturating_div_clamps. Qed.
Print Assumptions C09_saturating_div.
Example C09_nonvacuous :
  Div I8 (-7) 2 = Ret (-3) /\ Div I8 (-128) (-1) = Ret (-128) /\ CheckedDiv I8 (-128) (-1) = Ret None
  /\ SaturatingDiv I8 (-128) (-1) = Ret 127 /\ CheckedDiv U8 7 0 = Ret None.
Proof. repeat split. Qed.

(** C10: remainder. *)
Theorem C10_rem_panics_iff_zero : forall t a b,
  (Rem t a b = Panic <-> b = 0) /\ (RemAssign t a b = Panic <-> b = 0).
Proof.
  intros. unfold Rem, RemAssign.
  destruct (Z.eqb_spec b 0); repeat split; intros; auto; try discriminate; contradiction.
Qed.
Print Assumptions C10_rem_panics_iff_zero.
(** The remainder satisfies the division identity with the truncated quotient,
    is smaller than the divisor and has the sign of the dividend. *)
Theorem C10_rem_exact : forall t a b,
  in_range t a -> in_range t b -> b <> 0 ->
  exists r, Rem t a b = Ret r /\ RemAssign t a b = Ret r /\
    a = Z.quot a b * b + r /\ Z.abs r < Z.abs b /\ (r = 0 \/ Z.sgn r = Z.sgn a).
Proof.
  intros t a b Ha Hb H0. pose proof (rem_exact t a b Ha Hb H0) as HR.
  exists (Z.rem a b). unfold RemAssign. unfold Rem in *.
  repeat split; auto.
  - pose proof (Z.quot_rem a b H0). lia.
  - now apply Z.rem_bound_abs.
  - destruct (Z.eq_dec (Z.rem a b) 0); auto. right. now apply Z.rem_sign_nz.
Qed.
Print Assumptions C10_rem_exact.
Theorem C10_checked_rem_nonneg_partial : forall t a b,
  in_range t a -> in_range t b -> 0 <= a -> 0 <= b ->
  CheckedRem t a b = Ret (if b =? 0 then None else Some (Z.rem a b)).
Proof.
  intros t a b Ha Hb H1 H2. destruct (Z.eqb_spec b 0).
  - subst. reflexivity.
  - apply checked_rem_nonneg; auto. lia.
Qed.
Print Assumptions C10_checked_rem_nonneg_partial.
Theorem C10_checked_rem_characterised : forall t a b,
  in_range t a -> in_range t b ->
  CheckedRem t a b =
    Ret (if b =? 0 then None
         else if ((a <? Z.rem a b) || (b <? Z.rem a b))%bool then None else Some (Z.rem a b)).
Proof. exact checked_rem_char. Qed.
Print Assumptions C10_checked_rem_characterised.
Theorem C10_checked_rem_refuted : forall t, signed t = true ->
  CheckedRem t (-7) 2 = Ret None /\ CheckedRem t 7 (-2) = Ret None.
Proof. intros [] H; try discriminate; split; reflexivity. Qed.
Print Assumptions C10_checked_rem_refuted.
Example C10_nonvacuous : Rem I8 (-7) 2 = Ret (-1) /\ CheckedRem I8 7 2 = Ret (Some 1)
  /\ CheckedRem U8 7 0 = Ret None.
Proof. repeat split. Qed.

(** C11: Abs, AbsDiff, sign tests, Neg. *)
Theorem C11_abs_diff_exact : forall t a b,
  in_range t a -> in_range t b ->
  AbsDiff t a b = Z.abs (a - b) /\ in_range (unsigned_of t) (Z.abs (a - b)).
Proof. exact absdiff_exact. Qed.
Print Assumptions C11_abs_diff_exact.
Theorem C11_abs : forall t a,
  signed t = true -> in_range t a ->
  Abs t a = if a =? lowest t then lowest t else Z.abs a.
Proof. exact abs_correct. Qed.
Print Assumptions C11_abs.
Theorem C11_sign_tests : forall a,
  (IsPositive a = true <-> 0 < a) /\ (IsNegative a = true <-> a < 0).
Proof. intros. unfold IsPositive, IsNegative. now rewrite !Z.ltb_lt. Qed.
Print Assumptions C11_sign_tests.
Theorem C11_neg_wraps : forall t a ignored, wraps_to t (- a) (Neg t a ignored).
Proof. intros. apply wrap_wraps. Qed.
Print Assumptions C11_neg_wraps.
Example C11_nonvacuous :
  AbsDiff I8 (-128) 127 = 255 /\ Abs I8 (-128) = -128 /\ Abs I8 (-5) = 5 /\ AbsDiff U8 3 250 = 247
  /\ Neg I8 (-128) 0 = -128.
Proof. repeat split. Qed.

(** C12: Pow. *)
Theorem C12_pow_wraps : forall t a e,
  in_range t a -> in_range U32 e -> exists r, Pow t a e = Ret r /\ wraps_to t (a ^ e) r.
Proof. exact pow_correct. Qed.
Print Assumptions C12_pow_wraps.
Example C12_nonvacuous :
  Pow I32 3 5 = Ret 243 /\ Pow U8 3 6 = Ret 217 /\ Pow I8 (-2) 7 = Ret (-128) /\
  Pow U64 3 4294967295 = Ret 830436559519656619.
Proof. repeat split. Qed.

(** C13: Shl and Shr.  The property is false: the shift count is the receiver
    itself.  Exact behaviour: *)
Theorem C13_shl_characterised : forall t a b,
  in_range t a ->
  (a < 0 -> Shl t a b = Panic) /\
  (0 <= a -> exists r, Shl t a b = Ret r /\ wraps_to t (a * 2 ^ a) r).
Proof. exact shl_char. Qed.
Print Assumptions C13_shl_characterised.
Theorem C13_shr_characterised : forall t a b,
  in_range t a -> (a < 0 -> Shr t a b = Panic) /\ (0 <= a -> Shr t a b = Ret (a / 2 ^ a)).
Proof. exact shr_char. Qed.
Print Assumptions C13_shr_characterised.
(** The only guaranteed agreement with the intended meaning: a zero receiver, or
    an argument equal to a non-negative receiver. *)
Theorem C13_shift_partial : forall t a,
  in_range t a -> 0 <= a ->
  (exists r, Shl t a a = Ret r /\ wraps_to t (a * 2 ^ a) r) /\ Shr t a a = Ret (a / 2 ^ a).
Proof. intros t a Ha H. split. now apply shl_char. now apply shr_char. Qed.
Print Assumptions C13_shift_partial.
Theorem C13_shift_refuted : forall t,
  Shl t 1 3 = Ret 2 /\ Shr t 8 1 = Ret 0 /\ Shl t 1 0 = Ret 2.
Proof. intros []; repeat split. Qed.
Print Assumptions C13_shift_refuted.
Example C13_nonvacuous : Shl I8 3 3 = Ret 24 /\ Shr I8 3 3 = Ret 0 /\ Shl I8 (-1) 1 = Panic.
Proof. repeat split. Qed.
