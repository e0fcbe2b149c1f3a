(** DecimalProps.v -- theorems C20 and C21 (printing and parsing integers).
    [canonical s z] (DecimalSpec): [s] is the canonical decimal numeral of [z]. *)
From Coq Require Import List ZArith Lia.
Import ListNotations.
From Verif Require Import Base IntModel IntSpec IntProofs DecimalModel DecimalSpec DecimalProofs
  Int128Model Int128Spec Int128Proofs.
Local Open Scope Z_scope.

(** A number has only one canonical numeral, and a numeral denotes one number. *)
Theorem C20_canonical_unique : forall s1 s2 z, canonical s1 z -> canonical s2 z -> s1 = s2.
Proof. exact canonical_unique. Qed.
Print Assumptions C20_canonical_unique.
Theorem C20_canonical_injective : forall s z1 z2, canonical s z1 -> canonical s z2 -> z1 = z2.
Proof. exact canonical_functional. Qed.
Print Assumptions C20_canonical_injective.

(** C20: the ten machine types (Byte is U8 and Char is I32 here); a USize above
    2^63-1 is excluded ... *)
Theorem C20_to_string_partial : forall t x, in_range t x -> (t = USize -> x <= highest I64) ->
  canonical (ToString t x) x /\ canonical (Display t x) x.
Proof. intros. split; now apply ToString_canonical. Qed.
Print Assumptions C20_to_string_partial.
(** ... because it prints as a negative number. *)
Theorem C20_usize_characterised : forall x, in_range USize x -> highest I64 < x ->
  canonical (ToString USize x) (x - 2 ^ 64).
Proof. intros x [_ H1] H2. now apply ToString_USize_big. Qed.
Print Assumptions C20_usize_characterised.
Theorem C20_u128_to_string : forall a, uvalid a -> canonical (U128_ToString a) (uval a).
Proof. intros a H. rewrite U128_ToString_Itoa by auto. apply Itoa_canonical. Qed.
Print Assumptions C20_u128_to_string.
Theorem C20_i128_to_string_partial : forall a, ivalid a -> (ival a < 0 -> ~ awkward (ival a)) ->
  canonical (I128_ToString a) (ival a).
Proof.
  intros a H Hn. destruct (Z.ltb_spec (ival a) 0).
  - rewrite I128_ToString_neg_ok by (auto; apply neg_ok_awkward; auto). apply Itoa_canonical.
  - rewrite I128_ToString_nonneg by auto. apply Itoa_canonical.
Qed.
Print Assumptions C20_i128_to_string_partial.
(** Negative I128 values whose low word is all zeros or all ones print wrongly. *)
Theorem C20_i128_to_string_characterised : forall a, ivalid a -> ival a < 0 ->
  (ival a mod 2 ^ 64 = 0 -> canonical (I128_ToString a) (ival a + 2 ^ 64)) /\
  (ival a mod 2 ^ 64 = 2 ^ 64 - 1 -> canonical (I128_ToString a) (ival a - (2 ^ 64 - 1))).
Proof.
  intros a H Hn. rewrite ival_low by auto. split; intros HL.
  - rewrite I128_ToString_low0 by auto. apply Itoa_canonical.
  - rewrite I128_ToString_lowmax by auto. apply Itoa_canonical.
Qed.
Print Assumptions C20_i128_to_string_characterised.
Theorem C20_to_string_refuted :
  (* USize 2^63 prints "-9223372036854775808"; I128 -1 prints "-18446744073709551616" *)
  in_range USize (2 ^ 63) /\ canonical (ToString USize (2 ^ 63)) (- 2 ^ 63) /\
  ival (I128_FromI64 (-1)) = -1 /\ canonical (I128_ToString (I128_FromI64 (-1))) (- 2 ^ 64).
Proof.
  assert (in_range USize (2 ^ 63)) as R by (unfold in_range; cbn; lia).
  split; [exact R|]. split.
  - replace (- 2 ^ 63) with (2 ^ 63 - 2 ^ 64) by reflexivity. apply ToString_USize_big; cbn; lia.
  - split; [reflexivity|]. change (I128_FromI64 (-1)) with (mkI (-1) (2 ^ 64 - 1)).
    apply (proj2 (C20_i128_to_string_characterised (mkI (-1) (2 ^ 64 - 1)) ltac:(split; cbn; lia) ltac:(reflexivity))).
    reflexivity.
Qed.
Print Assumptions C20_to_string_refuted.
(** Bool prints "true" or "false". *)
Theorem C20_bool_to_string : Bool_ToString true = [116; 114; 117; 101] /\
  Bool_ToString false = [102; 97; 108; 115; 101].
Proof. split; reflexivity. Qed.
Print Assumptions C20_bool_to_string.
Example C20_nonvacuous :
  ToString I8 (-128) = [45; 49; 50; 56] /\ ToString USize 1205 = [49; 50; 48; 53] /\
  ToString U64 0 = [48] /\ U128_ToString (mkU 1 0) =
    [49;56;52;52;54;55;52;52;48;55;51;55;48;57;53;53;49;54;49;54] /\
  I128_ToString (I128_FromI64 (-6)) = [45; 54] /\ ~ awkward (-6).
Proof. repeat split; try (vm_compute; reflexivity). vm_compute; intros [H|H]; discriminate. Qed.

(** C21: ParseI64 accepts exactly the signed decimal texts in range. *)
Theorem C21_parse_i64_exact : forall s z,
  ParseI64 s = Some z <-> decimal_text s z /\ in_range I64 z.
Proof. exact ParseI64_spec. Qed.
Print Assumptions C21_parse_i64_exact.
Theorem C21_parse_i64_inverts_to_string : forall x, in_range I64 x -> ParseI64 (ToString I64 x) = Some x.
Proof.
  intros x H. apply ParseI64_spec. split; auto. apply canonical_decimal_text.
  apply ToString_canonical; auto; discriminate.
Qed.
Print Assumptions C21_parse_i64_inverts_to_string.
(** ParseU64 goes through the signed parser: right up to 2^63-1 ... *)
Theorem C21_parse_u64_inverts_partial : forall x, 0 <= x <= highest I64 -> ParseU64 (ToString U64 x) = Some x.
Proof.
  intros x H. apply ParseU64_spec. exists x. split; [|split].
  - apply canonical_decimal_text. apply ToString_canonical; [|discriminate]. unfold in_range; cbn in *; lia.
  - unfold in_range; cbn in *; lia.
  - split; [unfold in_range; cbn in *; lia|]. exists 0. lia.
Qed.
Print Assumptions C21_parse_u64_inverts_partial.
(** ... an error on every larger U64, and what it accepts exactly. *)
Theorem C21_parse_u64_large_characterised : forall x, highest I64 < x <= highest U64 ->
  ParseU64 (ToString U64 x) = None.
Proof.
  intros x H. destruct (ParseU64 (ToString U64 x)) as [z|] eqn:E; auto. exfalso.
  apply ParseU64_spec in E. destruct E as (y & D & R & _).
  assert (decimal_text (ToString U64 x) x) as D'.
  { apply canonical_decimal_text. apply ToString_canonical; [|discriminate]. unfold in_range; cbn in *; lia. }
  assert (y = x).
  { assert (parse_decimal (ToString U64 x) = Some y) by now apply parse_decimal_spec.
    assert (parse_decimal (ToString U64 x) = Some x) by now apply parse_decimal_spec. congruence. }
  subst. unfold in_range in R. lia.
Qed.
Print Assumptions C21_parse_u64_large_characterised.
Theorem C21_parse_u64_characterised : forall s z,
  ParseU64 s = Some z <-> exists y, decimal_text s y /\ in_range I64 y /\ wraps_to U64 y z.
Proof. exact ParseU64_spec. Qed.
Print Assumptions C21_parse_u64_characterised.
Theorem C21_parse_u64_refuted :
  (* 2^63 is not parsed back; "-1" is accepted as 2^64-1 *)
  ParseU64 (ToString U64 (2 ^ 63)) = None /\ ParseU64 [45; 49] = Some (2 ^ 64 - 1).
Proof. split; vm_compute; reflexivity. Qed.
Print Assumptions C21_parse_u64_refuted.
Example C21_nonvacuous :
  ParseI64 [45; 48; 48; 55] = Some (-7) /\ ParseI64 [49; 50; 97] = None /\ ParseI64 [] = None /\
  ParseU64 [52; 50] = Some 42 /\
  ParseI64 [57;50;50;51;51;55;50;48;51;54;56;53;52;55;55;53;56;48;56] = None.
Proof. repeat split; vm_compute; reflexivity. Qed.
