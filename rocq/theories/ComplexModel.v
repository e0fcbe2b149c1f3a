(** ComplexModel.v -- division of Complex64 and Complex128 (ops.go).  The operator / is a
    call of Go's run time, complex128div (runtime/complex.go of Go 1.20: Smith's algorithm
    with C99's corrections), modelled here operation by operation; numbers are those of
    FloatModel.v.  A NaN has no sign here: copying the sign of a NaN gives a plus. *)
From Coq Require Import ZArith Bool Floats.SpecFloat.
From Verif Require Import FloatModel.
Local Open Scope Z_scope.

(** The helpers of the run time: isNaN, isInf, isFinite (runtime/float.go), copysign is
    [with_sign], abs is [SFabs]. *)
Definition isNaN (f : spec_float) : bool := match f with S754_nan => true | _ => false end.
Definition isInf (f : spec_float) : bool := match f with S754_infinity _ => true | _ => false end.
Definition isFinite (f : spec_float) : bool := negb (isNaN f) && negb (isInf f).
Definition one : spec_float := S754_finite false 4503599627370496 (-52).
(** inf2one (runtime/complex.go): a signed 1 for an infinity, a signed 0 otherwise. *)
Definition inf2one (f : spec_float) : spec_float := with_sign (sign_bit f) (if isInf f then one else S754_zero false).
Definition is_zero (f : spec_float) : bool := match f with S754_zero _ => true | _ => false end.

Definition add := SFadd 53 1024.
Definition sub := SFsub 53 1024.
Definition mul := SFmul 53 1024.
Definition div := SFdiv 53 1024.
Definition inf : spec_float := S754_infinity false.
Definition zero : spec_float := S754_zero false.

(** complex128div, first half: Smith's algorithm. *)
Definition smith (a b c d : spec_float) : complex :=
  if SFleb (SFabs d) (SFabs c) then
    let ratio := div d c in
    let denom := add c (mul ratio d) in
    (div (add a (mul b ratio)) denom, div (sub b (mul a ratio)) denom)
  else
    let ratio := div c d in
    let denom := add d (mul ratio c) in
    (div (add (mul a ratio) b) denom, div (sub (mul b ratio) a) denom).
(** complex128div. *)
Definition complex128div (n m : complex) : complex :=
  let '(a, b) := n in
  let '(c, d) := m in
  let '(e, f) := smith a b c d in
  if isNaN e || isNaN f then
    if (is_zero c && is_zero d) && (negb (isNaN a) || negb (isNaN b)) then
      (mul (with_sign (sign_bit c) inf) a, mul (with_sign (sign_bit c) inf) b)
    else if (isInf a || isInf b) && isFinite c && isFinite d then
      let a := inf2one a in
      let b := inf2one b in
      (mul inf (add (mul a c) (mul b d)), mul inf (sub (mul b c) (mul a d)))
    else if (isInf c || isInf d) && isFinite a && isFinite b then
      let c := inf2one c in
      let d := inf2one d in
      (mul zero (add (mul a c) (mul b d)), mul zero (sub (mul b c) (mul a d)))
    else (e, f)
  else (e, f).

(** ops.go:519-521. *)
Definition Complex128_Div (self rhs : complex) : complex := complex128div self rhs.
(** ops.go:515-517: the compiler converts to complex128 and back. *)
Definition Complex64_Div (self rhs : complex) : complex :=
  let r := complex128div (to64 (fst self), to64 (snd self)) (to64 (fst rhs), to64 (snd rhs)) in
  (to32 (fst r), to32 (snd r)).
(** ops.go:942-948: the new value of the number that self points to. *)
Definition Complex64_DivAssign (self rhs : complex) : complex := Complex64_Div self rhs.
Definition Complex128_DivAssign (self rhs : complex) : complex := Complex128_Div self rhs.
