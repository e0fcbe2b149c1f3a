(** Int128Model.v -- the two-word types U128 and I128.

    primitive.go:11-15, 21-25 (records); ops.go, bitwise.go, cmp.go,
    to_string.go for the methods. *)
From Verif Require Import Base IntModel DecimalModel.
Local Open Scope Z_scope.
Local Open Scope bool_scope.

(** primitive.go: U128 {high U64; low U64}, I128 {high I64; low U64}. *)
Record U128 := mkU { uhigh : Z; ulow : Z }.
Record I128 := mkI { ihigh : Z; ilow : Z }.

(** Go's [^x] on U64 and I64, and [x << n], [x >> n] with an unsigned count. *)
Definition not_u64 (x : Z) : Z := MAX U64 - x.
Definition not_i64 (x : Z) : Z := - x - 1.
Definition shl_by (t : ity) (x n : Z) : Z :=
  if width t <=? n then 0 else wrap t (x * 2 ^ n).
Definition shr_by (t : ity) (x n : Z) : Z :=
  if width t <=? n then (if x <? 0 then -1 else 0) else x / 2 ^ n.

(** primitive.go:44-49. *)
Definition U128_FromU64 (low : Z) : U128 := mkU 0 low.
(** primitive.go:74-79. *)
Definition I128_FromU64 (low : Z) : I128 := mkI 0 low.

(** cmp.go (U64.Cmp, I64.Cmp): comparison of machine words. *)
Definition word_cmp (a b : Z) : ordering :=
  if a <? b then Less else if b <? a then Greater else Equal.

(** cmp.go:68-76. *)
Definition I128_Cmp (a b : I128) : ordering :=
  if ihigh a <? ihigh b then Less
  else if ihigh b <? ihigh a then Greater
  else word_cmp (ilow a) (ilow b).
(** cmp.go:128-136. *)
Definition U128_Cmp (a b : U128) : ordering :=
  if uhigh a <? uhigh b then Less
  else if uhigh b <? uhigh a then Greater
  else word_cmp (ulow a) (ulow b).

(** ops.go:84-106.  [low] is unsigned, so the [< 0] branch is never taken; it is
    kept here as written. *)
Definition I128_Add (a b : I128) : I128 :=
  let low := wrap U64 (ilow a + ilow b) in
  let carry :=
    if (ilow a <? 0) && (ilow b <? 0) then
      if (ilow a <? low) || (ilow b <? low) then 1 else 0
    else if (0 <? ilow a) && (0 <? ilow b) then
      if (low <? ilow a) || (low <? ilow b) then 1 else 0
    else 0 in
  mkI (wrap I64 (wrap I64 (ihigh a + ihigh b) + carry)) low.

(** ops.go:128-142. *)
Definition U128_Add (a b : U128) : U128 :=
  let low := wrap U64 (ulow a + ulow b) in
  let carry := if (low <? ulow a) || (low <? ulow b) then 1 else 0 in
  mkU (wrap U64 (wrap U64 (uhigh a + uhigh b) + carry)) low.

(** ops.go:3051-3068. *)
Definition I128_Neg (a : I128) : I128 :=
  let hasCarry := ilow a =? MAX U64 in
  let high := not_i64 (ihigh a) in
  let low := not_u64 (ilow a) in
  if hasCarry then mkI (wrap I64 (high + 1)) 0
  else mkI high (wrap U64 (low + 1)).

(** ops.go:193-197. *)
Definition I128_Sub (a b : I128) : I128 := I128_Add a (I128_Neg b).

(** ops.go:219-231. *)
Definition U128_Sub (a b : U128) : U128 :=
  let carry := if ulow a <? ulow b then 1 else 0 in
  mkU (wrap U64 (wrap U64 (uhigh a - uhigh b) - carry)) (wrap U64 (ulow a - ulow b)).

(** bitwise.go:31-51: the count is [rhs.low]; the carry is bit 63 of [low]
    whatever the count. *)
Definition I128_Shl (a b : I128) : I128 :=
  let low := shl_by U64 (ilow a) (ilow b) in
  let high := shl_by I64 (ihigh a) (ilow b) in
  let hasCarry := shr_by U64 (ilow a) 63 =? 1 in
  mkI (if hasCarry then wrap I64 (high + 1) else high) low.
(** bitwise.go:72-91. *)
Definition U128_Shl (a b : U128) : U128 :=
  let low := shl_by U64 (ulow a) (ulow b) in
  let high := shl_by U64 (uhigh a) (ulow b) in
  let hasCarry := shr_by U64 (ulow a) 63 =? 1 in
  mkU (if hasCarry then wrap U64 (high + 1) else high) low.
(** bitwise.go:113-132. *)
Definition I128_Shr (a b : I128) : I128 :=
  let low := shr_by U64 (ilow a) (ilow b) in
  let high := shr_by I64 (ihigh a) (ilow b) in
  let hasCarry := Z.land (ihigh a) 1 =? 1 in
  mkI high (if hasCarry then Z.lor low (2 ^ 63) else low).
(** bitwise.go:154-173. *)
Definition U128_Shr (a b : U128) : U128 :=
  let low := shr_by U64 (ulow a) (ulow b) in
  let high := shr_by U64 (uhigh a) (ulow b) in
  let hasCarry := Z.land (uhigh a) 1 =? 1 in
  mkU high (if hasCarry then Z.lor low (2 ^ 63) else low).

(** primitive.go:51-72. *)
Definition I128_FromI64 (low : Z) : I128 :=
  if low =? 0 then mkI 0 0
  else if low <? 0 then I128_Neg (mkI 0 (wrap U64 (Abs I64 low)))
  else mkI 0 (wrap U64 low).

(** ops.go:338-345: [n] iterations of the loop of U128.Mul. *)
Fixpoint U128_mul_loop (n : nat) (result self rhs : U128) : U128 :=
  match n with
  | O => result
  | S k =>
      let result' := if Z.land (ulow rhs) 1 =? 1 then U128_Add result self else result in
      U128_mul_loop k result' (U128_Shl self (U128_FromU64 1)) (U128_Shr rhs (U128_FromU64 1))
  end.
(** ops.go:332-348. *)
Definition U128_Mul (a b : U128) : U128 := U128_mul_loop 128 (mkU 0 0) a b.

(** ops.go:278-310: the loop ... *)
Fixpoint I128_mul_loop (n : nat) (result self rhs : I128) : I128 :=
  match n with
  | O => result
  | S k =>
      let result' := if Z.land (ilow rhs) 1 =? 1 then I128_Add result self else result in
      I128_mul_loop k result' (I128_Shl self (I128_FromI64 1)) (I128_Shr rhs (I128_FromI64 1))
  end.
(** ... and the sign handling around it. *)
Definition I128_Mul (a b : I128) : I128 :=
  let n1 := ihigh a <? 0 in
  let a' := if n1 then I128_Neg a else a in
  let n2 := ihigh b <? 0 in
  let b' := if n2 then I128_Neg b else b in
  let result := I128_mul_loop 128 (mkI 0 0) a' b' in
  if xorb n1 n2 then I128_Neg result else result.

(** to_string.go:44-71 and 93-114: the binary string of a word, least significant
    bit last; [bits n x acc] prepends [n] bits.  [(x & 1).ToString()[0]] is '0' or
    '1'; [x >> 1] is arithmetic for the signed high word. *)
Fixpoint bits (n : nat) (x : Z) (acc : list Z) : list Z :=
  match n with
  | O => acc
  | S k => bits k (x / 2) ((if Z.land x 1 =? 1 then 49 else 48) :: acc)
  end.

(** to_string.go:148-167, the loop from the last character to the first, on a
    reversed string; big.Int arithmetic is exact. *)
Fixpoint bin_value (rev_s : list Z) (digit decimal : Z) : Z :=
  match rev_s with
  | [] => decimal
  | c :: r => bin_value r (digit * 2) (if c =? 49 then decimal + digit else decimal)
  end.
(** to_string.go:148-167. *)
Definition ConvertBinaryStringToDecimalString (s : list Z) (isNegative : bool) : list Z :=
  let decimal := bin_value (rev s) 1 0 in
  Itoa (if isNegative then - decimal else decimal).

(** to_string.go:44-71. *)
Definition I128_ToString (a : I128) : list Z :=
  let isNegative := ihigh a <? 0 in
  if ihigh a =? 0 then ToString U64 (ilow a)
  else
    let a' := if isNegative then I128_Neg a else a in
    ConvertBinaryStringToDecimalString (bits 64 (ihigh a') (bits 64 (ilow a') [])) isNegative.

(** to_string.go:93-114. *)
Definition U128_ToString (a : U128) : list Z :=
  if uhigh a =? 0 then ToString U64 (ulow a)
  else ConvertBinaryStringToDecimalString (bits 64 (uhigh a) (bits 64 (ulow a) [])) false.

(** math/big (by its documentation): [x.SetString(s, 10)].  On malformed text the
    value is undefined; gost only passes its own ToString output, which the proofs
    show to be well formed, so [Panic] here is never reached. *)
Definition SetString10 (s : list Z) : out Z := of_option (parse_decimal s).
(** math/big: Int.Div is Euclidean division, panics on a zero divisor. *)
Definition big_Div (x y : Z) : out Z :=
  if y =? 0 then Panic
  else Ret (if 0 <? y then x / y else - (x / (- y))).
(** math/big: Int.Rem is the truncated remainder, panics on a zero divisor. *)
Definition big_Rem (x y : Z) : out Z := if y =? 0 then Panic else Ret (Z.rem x y).
(** math/big: [FillBytes(buf)] writes |x| big-endian into 16 bytes, panics if it
    does not fit; then the two 8-byte halves are read back. *)
Definition FillBytes16 (x : Z) : out (Z * Z) :=
  if Z.abs x <? 2 ^ 128 then Ret (Z.abs x / 2 ^ 64, Z.abs x mod 2 ^ 64) else Panic.

(** ops.go:465-497. *)
Definition U128_Div (lhs rhs : U128) : out U128 :=
  match U128_Cmp lhs rhs with
  | Less => Ret (mkU 0 0)
  | _ =>
      bl <- SetString10 (U128_ToString lhs) ;;
      br <- SetString10 (U128_ToString rhs) ;;
      q <- big_Div bl br ;;
      hl <- FillBytes16 q ;;
      Ret (mkU (fst hl) (snd hl))
  end.
(** ops.go:619-652. *)
Definition U128_Rem (lhs rhs : U128) : out U128 :=
  match U128_Cmp lhs rhs with
  | Less => Ret lhs
  | _ =>
      bl <- SetString10 (U128_ToString lhs) ;;
      br <- SetString10 (U128_ToString rhs) ;;
      q <- big_Rem bl br ;;
      hl <- FillBytes16 q ;;
      Ret (mkU (fst hl) (snd hl))
  end.

(** ops.go:395-443. *)
Definition I128_Div (lhs rhs : I128) : out I128 :=
  let n1 := ihigh lhs <? 0 in
  let lhs := if n1 then I128_Neg lhs else lhs in
  let n2 := ihigh rhs <? 0 in
  let rhs := if n2 then I128_Neg rhs else rhs in
  match I128_Cmp lhs rhs with
  | Less => Ret (mkI 0 0)
  | _ =>
      bl <- SetString10 (I128_ToString lhs) ;;
      br <- SetString10 (I128_ToString rhs) ;;
      q <- big_Div bl br ;;
      hl <- FillBytes16 q ;;
      let result := mkI (wrap I64 (fst hl)) (snd hl) in
      Ret (if xorb n1 n2 then I128_Neg result else result)
  end.

(** ops.go:544-597. *)
Definition I128_Rem (lhs rhs : I128) : out I128 :=
  let n1 := ihigh lhs <? 0 in
  let lhs := if n1 then I128_Neg lhs else lhs in
  let n2 := ihigh rhs <? 0 in
  let rhs := if n2 then I128_Neg rhs else rhs in
  match I128_Cmp lhs rhs with
  | Less => Ret (if xorb n1 n2 then I128_Neg lhs else lhs)
  | _ =>
      bl <- SetString10 (I128_ToString lhs) ;;
      br <- SetString10 (I128_ToString rhs) ;;
      q <- big_Rem bl br ;;
      hl <- FillBytes16 q ;;
      let result := mkI (wrap I64 (fst hl)) (snd hl) in
      Ret (if (ihigh result =? 0) && (ilow result =? 0) then result
           else if xorb n1 n2 then I128_Neg result else result)
  end.

(** ops.go:2734-2739. *)
Definition I128_Abs (a : I128) : I128 := if ihigh a <? 0 then I128_Neg a else a.
(** ops.go:2857-2859: tests the high word only. *)
Definition I128_IsPositive (a : I128) : bool := 0 <? ihigh a.
(** ops.go:2887-2889. *)
Definition I128_IsNegative (a : I128) : bool := ihigh a <? 0.
