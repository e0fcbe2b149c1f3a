(** FloatTextSpec.v -- decimal numerals with a point and an exponent, independent of the
    model.  Strings are byte lists: '+' 43, '-' 45, '.' 46, 'E' 69, 'e' 101. *)
From Coq Require Import List ZArith QArith Qabs Floats.SpecFloat.
From Verif Require Import DecimalSpec FloatSpec.
Import ListNotations.
Local Open Scope Z_scope.

(** D * 10^K. *)
Definition scaled (D K : Z) : Q := (inject_Z D * 10 ^ K)%Q.
Definition signed (neg : bool) (v : Q) : Q := if neg then (- v)%Q else v.
(** [s] is a numeral: a sign, digits with or without a point, an exponent with or
    without a sign; sign, point and exponent may be missing, not all digits.  It denotes
    [d] * 10^([e] - [f]), negated if [neg]: all the digits, [f] of them after the point,
    and the written exponent. *)
Definition numeral (s : list Z) (neg : bool) (d f e : Z) : Prop :=
  exists sign ip point fp expo, s = sign ++ ip ++ point ++ fp ++ expo /\
    ((sign = [] /\ neg = false) \/ (sign = [43] /\ neg = false) \/ (sign = [45] /\ neg = true)) /\
    Forall digit_char ip /\ Forall digit_char fp /\ ip ++ fp <> [] /\
    (point = [46] \/ (point = [] /\ fp = [])) /\
    d = value_of (ip ++ fp) /\ f = Z.of_nat (length fp) /\
    ((expo = [] /\ e = 0) \/
     exists c es ds, expo = c :: es ++ ds /\ (c = 101 \/ c = 69) /\ ds <> [] /\ Forall digit_char ds /\
       (((es = [] \/ es = [43]) /\ e = value_of ds) \/ (es = [45] /\ e = - value_of ds))).
(** Without exponent, superfluous zeros or a plus sign: how FormatFloat writes. *)
Definition plain_numeral (s : list Z) (neg : bool) (v : Q) : Prop :=
  exists ip fp, s = (if neg then [45] else []) ++ ip ++ match fp with [] => [] | _ => 46 :: fp end /\
    ip <> [] /\ Forall digit_char ip /\ Forall digit_char fp /\
    (forall r, ip = 48 :: r -> r = []) /\ (forall r, fp <> r ++ [48]) /\
    (v == scaled (value_of (ip ++ fp)) (- Z.of_nat (length fp)))%Q.
(** Letters, whatever their case. *)
Definition spelled (s word : list Z) : Prop := Forall2 (fun c d => c = d \/ c = d - 32) s word.
(** "inf", "infinity" with or without a sign, "nan". *)
Definition named (s : list Z) (x : spec_float) : Prop :=
  (x = S754_nan /\ spelled s [110; 97; 110]) \/
  exists sign body neg, s = sign ++ body /\ x = S754_infinity neg /\
    ((sign = [] /\ neg = false) \/ (sign = [43] /\ neg = false) \/ (sign = [45] /\ neg = true)) /\
    (spelled body [105; 110; 102] \/ spelled body [105; 110; 102; 105; 110; 105; 116; 121]).
(** Hexadecimal notation: the text begins with "0x" after the sign. *)
Definition hexadecimal (s : list Z) : Prop :=
  exists sign r, (sign = [] \/ sign = [43] \/ sign = [45]) /\ (s = sign ++ 48 :: 120 :: r \/ s = sign ++ 48 :: 88 :: r).
(** [n] digits of [D] * 10^[K] are the fewest that round to [x] (a positive number), and
    no other numeral with so few digits that rounds to [x] is nearer. *)
Definition shortest_decimal (prec emax : Z) (x : spec_float) (D K n : Z) : Prop :=
  0 < D < 10 ^ n /\ rounds_to prec emax (scaled D K) x /\
  (forall D' K', 0 < D' < 10 ^ (n - 1) -> ~ rounds_to prec emax (scaled D' K') x) /\
  (forall D' K', 0 < D' < 10 ^ n -> rounds_to prec emax (scaled D' K') x ->
     (Qabs (value x - scaled D K) <= Qabs (value x - scaled D' K'))%Q).

(** The text of a number of the format: NaN, +Inf, -Inf, 0, -0, or the numeral of the
    fewest digits (at most [k]) that rounds to it, nearest to it. *)
Definition number_text (prec emax k : Z) (x : spec_float) (s : list Z) : Prop :=
  match x with
  | S754_nan => s = [78; 97; 78]
  | S754_infinity neg => s = (if neg then [45] else [43]) ++ [73; 110; 102]
  | S754_zero neg => s = (if neg then [45] else []) ++ [48]
  | S754_finite neg m e => exists D K n, plain_numeral s neg (scaled D K) /\
      shortest_decimal prec emax (S754_finite false m e) D K n /\ 1 <= n <= k
  end.
(** "(", the real part, the imaginary part with its sign, "i)". *)
Definition complex_text (re im : list Z) (y : spec_float) : list Z :=
  let signed_already := match y with S754_infinity _ => true | _ => negative y end in
  [40] ++ re ++ (if signed_already then [] else [43]) ++ im ++ [105; 41].
(** What a text that denotes [v] (negated if [neg]) is read as: the nearest F64, or
    nothing if it is too large. *)
Definition number_read (neg : bool) (v : Q) (o : option spec_float) : Prop :=
  match o with
  | Some r => rounds_to 53 1024 (signed neg v) r /\ finite r /\ negative r = neg
  | None => (limit 53 1024 <= v)%Q
  end.
