(** ComplexSpec.v -- the quotient of complex numbers.
    (a + bi) / (c + di) = (ac + bd) / (cc + dd) + ((bc - ad) / (cc + dd)) i. *)
From Coq Require Import ZArith QArith Qabs Bool Floats.SpecFloat.
From Verif Require Import FloatSpec.
Local Open Scope Q_scope.

(** The numerators of the two parts, and the square of the absolute value. *)
Definition real_part (a b c d : Q) : Q := a * c + b * d.
Definition imaginary_part (a b c d : Q) : Q := b * c - a * d.
Definition square_abs (c d : Q) : Q := c * c + d * d.
(** [M] is at least the absolute value of (a + bi) / (c + di). *)
Definition bounds_quotient (a b c d M : Q) : Prop := 0 <= M /\ square_abs a b <= M * M * square_abs c d.
(** The parts [e] and [f] are the quotient, up to [eps] times its absolute value. *)
Definition near_quotient (eps a b c d : Q) (e f : spec_float) : Prop :=
  finite e /\ finite f /\
  forall M, bounds_quotient a b c d M ->
    Qabs (value e - real_part a b c d / square_abs c d) <= eps * M /\
    Qabs (value f - imaginary_part a b c d / square_abs c d) <= eps * M.
(** Zero, or neither extremely small nor extremely large. *)
Definition moderate (x : spec_float) : Prop := finite x /\ (value x == 0 \/ 2 ^ (-300) <= Qabs (value x) <= 2 ^ 300).

Definition infinite (x : spec_float) : Prop := exists s, x = S754_infinity s.
Definition nonzero (x : spec_float) : Prop := ~ value x == 0.
(** The sign of an infinity; any other number counts for nothing beside one. *)
Definition direction (x : spec_float) : Q := match x with S754_infinity s => if s then - 1 else 1 | _ => 0 end.
(** [x] is the infinity on the side of [v], or NaN if [v] has no side. *)
Definition infinite_toward (v : Q) (x : spec_float) : Prop :=
  (v == 0 -> x = S754_nan) /\ (0 < v -> x = S754_infinity false) /\ (v < 0 -> x = S754_infinity true).
(** [x] is a zero, on the side of [v] if [v] has one. *)
Definition zero_toward (v : Q) (x : spec_float) : Prop :=
  exists s, x = S754_zero s /\ (0 < v -> s = false) /\ (v < 0 -> s = true).
(** ... but NaN if [v] is too large for a number. *)
Definition vanishes_toward (v : Q) (x : spec_float) : Prop :=
  (Qabs v < limit 53 1024 -> zero_toward v x) /\ (limit 53 1024 <= Qabs v -> x = S754_nan).
