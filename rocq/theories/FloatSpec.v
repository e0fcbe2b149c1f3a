(** FloatSpec.v -- what floating-point numbers are and what it means to round.
    A number of the format (prec, emax) is NaN, an infinity, a signed zero or
    +-m * 2^e with the bounds of IEEE 754 (SpecFloat's [valid_binary]). *)
From Coq Require Import ZArith QArith Qabs Bool Floats.SpecFloat.
Local Open Scope Q_scope.

Definition finite (x : spec_float) : Prop := match x with S754_zero _ | S754_finite _ _ _ => True | _ => False end.
(** The rational number that a finite one stands for. *)
Definition value (x : spec_float) : Q :=
  match x with
  | S754_finite s m e => inject_Z (if s then Zneg m else Zpos m) * 2 ^ e
  | _ => 0
  end.
(** The sign bit. *)
Definition negative (x : spec_float) : bool :=
  match x with S754_zero s | S754_infinity s | S754_finite s _ _ => s | S754_nan => false end.
Definition even_digit (x : spec_float) : Prop :=
  match x with S754_finite _ m _ => Z.even (Zpos m) = true | _ => True end.

(** Half a step above the largest number: from here on one rounds to infinity. *)
Definition limit (prec emax : Z) : Q := (inject_Z (2 ^ prec) - (1 # 2)) * 2 ^ (emax - prec).
(** [r] is the result of rounding the rational number [v] to the nearest number of the
    format; of two equally near ones it is the one with an even last digit. *)
Definition rounds_to (prec emax : Z) (v : Q) (r : spec_float) : Prop :=
  valid_binary prec emax r = true /\
  match r with
  | S754_nan => False
  | S754_infinity s => limit prec emax <= (if s then - v else v)
  | _ => Qabs v < limit prec emax /\
         forall y, valid_binary prec emax y = true -> finite y ->
           Qabs (v - value r) <= Qabs (v - value y) /\
           (Qabs (v - value r) == Qabs (v - value y) -> value y == value r \/ even_digit r)
  end.
(** [r] is the result of rounding the square root of [w] (a positive rational): it is on
    [r]'s side of the middle between [r] and any other number. *)
Definition sqrt_rounds_to (prec emax : Z) (w : Q) (r : spec_float) : Prop :=
  valid_binary prec emax r = true /\ finite r /\ negative r = false /\
  forall y, valid_binary prec emax y = true -> finite y -> negative y = false ->
    let middle := (value r + value y) * (1 # 2) in
    (value r < value y -> w <= middle * middle /\ (w == middle * middle -> even_digit r)) /\
    (value y < value r -> middle * middle <= w /\ (w == middle * middle -> even_digit r)).

(** *** The two formats *)
Definition is_F32 (x : spec_float) : Prop := valid_binary 24 128 x = true.
Definition is_F64 (x : spec_float) : Prop := valid_binary 53 1024 x = true.
(** The same number (or infinity, or NaN), with the same sign bit. *)
Definition same_number (x y : spec_float) : Prop :=
  match x with
  | S754_zero _ | S754_finite _ _ _ => finite y /\ value y == value x /\ negative y = negative x
  | _ => y = x
  end.

(** *** Integers next to a rational number *)
Definition is_floor (v : Q) (n : Z) : Prop := inject_Z n <= v < inject_Z n + 1.
Definition is_ceiling (v : Q) (n : Z) : Prop := inject_Z n - 1 < v <= inject_Z n.
Definition is_truncation (v : Q) (n : Z) : Prop := (0 <= v -> is_floor v n) /\ (v <= 0 -> is_ceiling v n).
(** Nearest; half-way cases away from zero. *)
Definition is_nearest (v : Q) (n : Z) : Prop :=
  Qabs (v - inject_Z n) <= 1 # 2 /\ (Qabs (v - inject_Z n) == 1 # 2 -> Qabs v < Qabs (inject_Z n)).
(** [r] is exactly the integer next to [x] that [P] says, with the sign bit of [x];
    zeros, infinities and NaN stay what they are. *)
Definition integer_of (P : Q -> Z -> Prop) (x r : spec_float) : Prop :=
  match x with
  | S754_finite s _ _ => finite r /\ negative r = s /\ exists n, value r == inject_Z n /\ P (value x) n
  | _ => r = x
  end.

(** *** The four operations of IEEE 754, rounded to nearest even *)
(** Zero results: the exact sum zero is positive unless both summands are negative. *)
Definition ieee_sum (prec emax : Z) (v : Q) (sx sy : bool) (r : spec_float) : Prop :=
  rounds_to prec emax v r /\ (negative r = true <-> v < 0 \/ (v == 0 /\ sx = true /\ sy = true)).
Definition ieee_add (prec emax : Z) (x y r : spec_float) : Prop :=
  match x, y with
  | S754_nan, _ | _, S754_nan => r = S754_nan
  | S754_infinity sx, S754_infinity sy => r = if Bool.eqb sx sy then x else S754_nan
  | S754_infinity _, _ => r = x
  | _, S754_infinity _ => r = y
  | _, _ => ieee_sum prec emax (value x + value y) (negative x) (negative y) r
  end.
Definition ieee_sub (prec emax : Z) (x y r : spec_float) : Prop :=
  match x, y with
  | S754_nan, _ | _, S754_nan => r = S754_nan
  | S754_infinity sx, S754_infinity sy => r = if Bool.eqb sx sy then S754_nan else x
  | S754_infinity _, _ => r = x
  | _, S754_infinity sy => r = S754_infinity (negb sy)
  | _, _ => ieee_sum prec emax (value x - value y) (negative x) (negb (negative y)) r
  end.
Definition ieee_mul (prec emax : Z) (x y r : spec_float) : Prop :=
  let s := xorb (negative x) (negative y) in
  match x, y with
  | S754_nan, _ | _, S754_nan => r = S754_nan
  | S754_infinity _, S754_zero _ | S754_zero _, S754_infinity _ => r = S754_nan
  | S754_infinity _, _ | _, S754_infinity _ => r = S754_infinity s
  | _, _ => rounds_to prec emax (value x * value y) r /\ negative r = s
  end.
Definition ieee_div (prec emax : Z) (x y r : spec_float) : Prop :=
  let s := xorb (negative x) (negative y) in
  match x, y with
  | S754_nan, _ | _, S754_nan => r = S754_nan
  | S754_infinity _, S754_infinity _ | S754_zero _, S754_zero _ => r = S754_nan
  | S754_infinity _, _ | _, S754_zero _ => r = S754_infinity s
  | _, S754_infinity _ => r = S754_zero s
  | _, _ => rounds_to prec emax (value x / value y) r /\ negative r = s
  end.
Definition ieee_sqrt (prec emax : Z) (x r : spec_float) : Prop :=
  match x with
  | S754_zero _ | S754_infinity false => r = x
  | S754_nan | S754_infinity true | S754_finite true _ _ => r = S754_nan
  | S754_finite false _ _ => sqrt_rounds_to prec emax (value x) r
  end.
(** [r] is what the format can hold of [z]. *)
Definition narrowed (prec emax : Z) (z r : spec_float) : Prop :=
  (finite z -> rounds_to prec emax (value z) r /\ negative r = negative z) /\ (~ finite z -> r = z).
