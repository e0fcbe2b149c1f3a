(** FloatModel.v -- F32, F64, Complex64 and Complex128: float.go and the floating-point
    part of ops.go.  Numbers are Coq's [spec_float]: an F32 is one of the format (24, 128),
    an F64 one of (53, 1024); a NaN has no payload.  Arithmetic is that of SpecFloat: Go
    rounds each operation to nearest even (no fused operations: amd64). *)
From Coq Require Import ZArith Bool Floats.SpecFloat.
Local Open Scope Z_scope.

(** Go's conversions float64(x) and float32(x) between the formats. *)
Definition convert (prec emax : Z) (x : spec_float) : spec_float :=
  match x with S754_finite s m e => binary_round prec emax s m e | _ => x end.
Definition to64 : spec_float -> spec_float := convert 53 1024.
Definition to32 : spec_float -> spec_float := convert 24 128.
(** float64(n) of an int. *)
Definition int_to64 (n : Z) : spec_float := binary_normalize 53 1024 n 0 false.

(** *** Package math, after its documentation.
    An integer part is computed from the magnitude m / d of a number that is not an
    integer by its representation; [pick s m d] chooses the magnitude of the result.  The
    sign bit stays, zeros, infinities and NaN are returned as they are. *)
Definition integer_part (pick : bool -> Z -> Z -> Z) (x : spec_float) : spec_float :=
  match x with
  | S754_finite s m e =>
      if 0 <=? e then x
      else match pick s (Zpos m) (2 ^ (- e)) with Zpos p => binary_round 53 1024 s p 0 | _ => S754_zero s end
  | _ => x
  end.
Definition down (m d : Z) : Z := m / d.
Definition up (m d : Z) : Z := - ((- m) / d).
(** math.Floor, math.Ceil, math.Trunc, math.Round. *)
Definition math_Floor : spec_float -> spec_float := integer_part (fun s m d => if s then up m d else down m d).
Definition math_Ceil : spec_float -> spec_float := integer_part (fun s m d => if s then down m d else up m d).
Definition math_Trunc : spec_float -> spec_float := integer_part (fun _ m d => down m d).
Definition math_Round : spec_float -> spec_float := integer_part (fun _ m d => (2 * m + d) / (2 * d)).
(** math.Abs. *)
Definition math_Abs : spec_float -> spec_float := SFabs.
(** math.Modf: the integer part, and what remains with the sign of x. *)
Definition with_sign (s : bool) (x : spec_float) : spec_float :=
  match x with
  | S754_zero _ => S754_zero s
  | S754_infinity _ => S754_infinity s
  | S754_nan => S754_nan
  | S754_finite _ m e => S754_finite s m e
  end.
Definition sign_bit (x : spec_float) : bool :=
  match x with S754_zero s | S754_infinity s | S754_finite s _ _ => s | S754_nan => false end.
Definition math_Modf (x : spec_float) : spec_float * spec_float :=
  let i := math_Trunc x in (i, with_sign (sign_bit x) (SFsub 53 1024 x i)).
(** math.Sqrt. *)
Definition math_Sqrt : spec_float -> spec_float := SFsqrt 53 1024.

(** *** float.go *)
(** float.go:14-29. *)
Definition F32_Floor (self : spec_float) : spec_float := to32 (math_Floor (to64 self)).
Definition F64_Floor (self : spec_float) : spec_float := math_Floor self.
(** float.go:38-51. *)
Definition F32_Ceil (self : spec_float) : spec_float := to32 (math_Ceil (to64 self)).
Definition F64_Ceil (self : spec_float) : spec_float := math_Ceil self.
(** float.go:66-85. *)
Definition F32_Round (self : spec_float) : spec_float := to32 (math_Round (to64 self)).
Definition F64_Round (self : spec_float) : spec_float := math_Round self.
(** float.go:94-107. *)
Definition F32_Abs (self : spec_float) : spec_float := to32 (math_Abs (to64 self)).
Definition F64_Abs (self : spec_float) : spec_float := math_Abs self.
(** float.go:116-129. *)
Definition F32_Trunc (self : spec_float) : spec_float := to32 (math_Trunc (to64 self)).
Definition F64_Trunc (self : spec_float) : spec_float := math_Trunc self.
(** float.go:138-155. *)
Definition F32_Frac (self : spec_float) : spec_float := to32 (snd (math_Modf (to64 self))).
Definition F64_Frac (self : spec_float) : spec_float := snd (math_Modf self).
(** float.go:211-225. *)
Definition F32_Sqrt (self : spec_float) : spec_float := to32 (math_Sqrt (to64 self)).
Definition F64_Sqrt (self : spec_float) : spec_float := math_Sqrt self.

(** The transcendental functions of package math are not modelled: they are any
    functions on float64. *)
Record mathlib := { Pow : spec_float -> spec_float -> spec_float;
  Exp : spec_float -> spec_float; Exp2 : spec_float -> spec_float;
  Log : spec_float -> spec_float; Log2 : spec_float -> spec_float; Log10 : spec_float -> spec_float }.
Section Transcendental.
  Variable math : mathlib.
  (** float.go:165-179. *)
  Definition F32_Powi (self : spec_float) (n : Z) : spec_float := to32 (Pow math (to64 self) (int_to64 n)).
  Definition F64_Powi (self : spec_float) (n : Z) : spec_float := Pow math self (int_to64 n).
  (** float.go:188-201. *)
  Definition F32_Powf (self n : spec_float) : spec_float := to32 (Pow math (to64 self) (to64 n)).
  Definition F64_Powf (self n : spec_float) : spec_float := Pow math self n.
  (** float.go:234-247. *)
  Definition F32_Exp (self : spec_float) : spec_float := to32 (Exp math (to64 self)).
  Definition F64_Exp (self : spec_float) : spec_float := Exp math self.
  (** float.go:256-269. *)
  Definition F32_Exp2 (self : spec_float) : spec_float := to32 (Exp2 math (to64 self)).
  Definition F64_Exp2 (self : spec_float) : spec_float := Exp2 math self.
  (** float.go:278-291. *)
  Definition F32_Ln (self : spec_float) : spec_float := to32 (Log math (to64 self)).
  Definition F64_Ln (self : spec_float) : spec_float := Log math self.
  (** float.go:301-315: the quotient is taken in float64. *)
  Definition F32_Log (self base : spec_float) : spec_float := to32 (SFdiv 53 1024 (Log math (to64 self)) (Log math (to64 base))).
  Definition F64_Log (self base : spec_float) : spec_float := SFdiv 53 1024 (Log math self) (Log math base).
  (** float.go:324-337. *)
  Definition F32_Log2 (self : spec_float) : spec_float := to32 (Log2 math (to64 self)).
  Definition F64_Log2 (self : spec_float) : spec_float := Log2 math self.
  (** float.go:346-359. *)
  Definition F32_Log10 (self : spec_float) : spec_float := to32 (Log10 math (to64 self)).
  Definition F64_Log10 (self : spec_float) : spec_float := Log10 math self.
End Transcendental.

(** *** ops.go *)
(** ops.go:144-150. *)
Definition F32_Add (self rhs : spec_float) : spec_float := SFadd 24 128 self rhs.
Definition F64_Add (self rhs : spec_float) : spec_float := SFadd 53 1024 self rhs.
(** ops.go:233-239. *)
Definition F32_Sub (self rhs : spec_float) : spec_float := SFsub 24 128 self rhs.
Definition F64_Sub (self rhs : spec_float) : spec_float := SFsub 53 1024 self rhs.
(** ops.go:350-356. *)
Definition F32_Mul (self rhs : spec_float) : spec_float := SFmul 24 128 self rhs.
Definition F64_Mul (self rhs : spec_float) : spec_float := SFmul 53 1024 self rhs.
(** ops.go:499-505: no panic on zero. *)
Definition F32_Div (self rhs : spec_float) : spec_float := SFdiv 24 128 self rhs.
Definition F64_Div (self rhs : spec_float) : spec_float := SFdiv 53 1024 self rhs.
(** ops.go:703-709, 780-786, 853-859, 926-932: the new value of the number that self
    points to. *)
Definition F32_AddAssign (self rhs : spec_float) : spec_float := SFadd 24 128 self rhs.
Definition F64_AddAssign (self rhs : spec_float) : spec_float := SFadd 53 1024 self rhs.
Definition F32_SubAssign (self rhs : spec_float) : spec_float := SFsub 24 128 self rhs.
Definition F64_SubAssign (self rhs : spec_float) : spec_float := SFsub 53 1024 self rhs.
Definition F32_MulAssign (self rhs : spec_float) : spec_float := SFmul 24 128 self rhs.
Definition F64_MulAssign (self rhs : spec_float) : spec_float := SFmul 53 1024 self rhs.
Definition F32_DivAssign (self rhs : spec_float) : spec_float := SFdiv 24 128 self rhs.
Definition F64_DivAssign (self rhs : spec_float) : spec_float := SFdiv 53 1024 self rhs.

(** *** Complex numbers (real part, imaginary part).
    Multiplication is how Go's compiler does it: in float64, also for Complex64, whose
    result is then converted.  Division is in ComplexModel.v. *)
Definition complex : Type := spec_float * spec_float.
(** ops.go:164-170. *)
Definition Complex64_Add (self rhs : complex) : complex := (SFadd 24 128 (fst self) (fst rhs), SFadd 24 128 (snd self) (snd rhs)).
Definition Complex128_Add (self rhs : complex) : complex := (SFadd 53 1024 (fst self) (fst rhs), SFadd 53 1024 (snd self) (snd rhs)).
(** ops.go:249-255. *)
Definition Complex64_Sub (self rhs : complex) : complex := (SFsub 24 128 (fst self) (fst rhs), SFsub 24 128 (snd self) (snd rhs)).
Definition Complex128_Sub (self rhs : complex) : complex := (SFsub 53 1024 (fst self) (fst rhs), SFsub 53 1024 (snd self) (snd rhs)).
Definition complex_mul64 (a b : complex) : complex :=
  (SFsub 53 1024 (SFmul 53 1024 (fst a) (fst b)) (SFmul 53 1024 (snd a) (snd b)),
   SFadd 53 1024 (SFmul 53 1024 (fst a) (snd b)) (SFmul 53 1024 (snd a) (fst b))).
(** ops.go:366-372. *)
Definition Complex128_Mul (self rhs : complex) : complex := complex_mul64 self rhs.
Definition Complex64_Mul (self rhs : complex) : complex :=
  let r := complex_mul64 (to64 (fst self), to64 (snd self)) (to64 (fst rhs), to64 (snd rhs)) in
  (to32 (fst r), to32 (snd r)).
(** ops.go:723-729, 796-802, 869-875. *)
Definition Complex64_AddAssign (self rhs : complex) : complex := Complex64_Add self rhs.
Definition Complex128_AddAssign (self rhs : complex) : complex := Complex128_Add self rhs.
Definition Complex64_SubAssign (self rhs : complex) : complex := Complex64_Sub self rhs.
Definition Complex128_SubAssign (self rhs : complex) : complex := Complex128_Sub self rhs.
Definition Complex64_MulAssign (self rhs : complex) : complex := Complex64_Mul self rhs.
Definition Complex128_MulAssign (self rhs : complex) : complex := Complex128_Mul self rhs.
