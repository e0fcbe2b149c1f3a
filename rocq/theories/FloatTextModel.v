(** FloatTextModel.v -- the text of floating-point and complex numbers: to_string.go and
    ParseF64 of string.go, over strconv's FormatFloat, FormatComplex and ParseFloat.

    A Go string is a [list Z] of bytes ('.' = 46, '0' = 48, '_' = 95, 'e' = 101). *)
From Coq Require Import Floats.SpecFloat.
From Verif Require Import Base DecimalModel FloatModel.
Local Open Scope Z_scope.
Local Open Scope bool_scope.

(** The fraction n/d rounded to nearest even, with a sign. *)
Definition round_ratio (prec emax : Z) (s : bool) (n d : Z) : spec_float :=
  match n, d with
  | Zpos _, Zpos _ => let '(m, e, l) := SFdiv_core_binary prec emax n 0 d 0 in binary_round_aux prec emax s m e l
  | _, _ => S754_zero s
  end.
(** D * base^K rounded. *)
Definition round_scaled (prec emax base : Z) (s : bool) (D K : Z) : spec_float :=
  if 0 <=? K then round_ratio prec emax s (D * base ^ K) 1 else round_ratio prec emax s D (base ^ (- K)).

(** *** strconv.FormatFloat(x, 'f', -1, bitSize)
    "The special precision -1 uses the smallest number of digits necessary such that
    ParseFloat will return f exactly."  Of the numerals of that length it is the nearest
    one.  Go has a fast and a slow way to find it; this is the slow one (decimal.go and
    roundShortest of ftoa.go): all digits of the number, cut after n of them. *)
Section Shortest.
  Variable prec emax : Z.
  Variable m : positive.
  Variable e : Z.
  (** m * 2^e is [all_digits] * 10^(- [places]). *)
  Definition all_digits : Z := Zpos m * 2 ^ Z.max 0 e * 5 ^ Z.max 0 (- e).
  Definition places : Z := Z.max 0 (- e).
  Definition count : Z := Z.of_nat (length (digits all_digits)).
  (** Is D * 10^K read as m * 2^e? *)
  Definition read_back (D K : Z) : bool :=
    match round_scaled prec emax 10 false D K with
    | S754_finite _ m' e' => Pos.eqb m m' && (e =? e')
    | _ => false
    end.
  (** D * 10^K with n digits, for the least n from the given one on. *)
  Fixpoint shortest (fuel : nat) (n : Z) : Z * Z :=
    match fuel with
    | O => (all_digits, - places)
    | S k =>
        let u := 10 ^ (count - n) in
        let K := count - n - places in
        let lo := all_digits / u in
        let hi := if lo + 1 =? 10 ^ n then (1, K + n) else (lo + 1, K) in
        let okdown := read_back lo K in
        let okup := read_back (lo + 1) K in
        let twice := 2 * (all_digits - lo * u) in
        if okdown && okup
        then if (twice <? u) || ((twice =? u) && Z.even lo) then (lo, K) else hi
        else if okdown then (lo, K)
        else if okup then hi
        else shortest k (n + 1)
    end.
End Shortest.
(** D * 10^K without an exponent ([fmtF] of ftoa.go). *)
Definition positional (D K : Z) : list Z :=
  let ds := digits D in
  if 0 <=? K then ds ++ repeat 48 (Z.to_nat K)
  else let f := Z.to_nat (- K) in
       if Nat.ltb f (length ds) then firstn (length ds - f) ds ++ 46 :: skipn (length ds - f) ds
       else 48 :: 46 :: repeat 48 (f - length ds) ++ ds.
Definition minus (s : bool) : list Z := if s then [45] else [].
Definition FormatFloat (prec emax : Z) (x : spec_float) : list Z :=
  match x with
  | S754_nan => [78; 97; 78]
  | S754_infinity s => (if s then 45 else 43) :: [73; 110; 102]
  | S754_zero s => minus s ++ [48]
  | S754_finite s m e =>
      let '(D, K) := shortest prec emax m e (Z.to_nat (count m e)) 1 in
      minus s ++ positional D K
  end.
(** to_string.go:116-122 (and fmt.go:61-67: Display is ToString).  An F32 is widened to
    float64 and FormatFloat with bit size 32 narrows it again. *)
Definition F32_ToString (self : spec_float) : list Z := FormatFloat 24 128 (to32 (to64 self)).
Definition F64_ToString (self : spec_float) : list Z := FormatFloat 53 1024 self.
(** strconv.FormatComplex(c, 'f', -1, 2 * bitSize). *)
Definition FormatComplex (prec emax : Z) (c : complex) : list Z :=
  let im := FormatFloat prec emax (snd c) in
  let im := match im with
            | 43 :: _ | 45 :: _ => im
            | _ => 43 :: im
            end in
  40 :: FormatFloat prec emax (fst c) ++ im ++ [105; 41].
(** to_string.go:140-146 (and fmt.go:85-91). *)
Definition Complex64_ToString (self : complex) : list Z := FormatComplex 24 128 (to32 (to64 (fst self)), to32 (to64 (snd self))).
Definition Complex128_ToString (self : complex) : list Z := FormatComplex 53 1024 self.

(** *** strconv.ParseFloat(s, 64): atof.go.  [None] is a syntax or a range error. *)
Definition lower (c : Z) : Z := Z.lor c 32.
Definition digit_in (base c : Z) : option Z :=
  if is_digit c then Some (c - 48)
  else if (base =? 16) && (97 <=? lower c) && (lower c <=? 102) then Some (lower c - 87)
  else None.
(** Digits, underscores and one point: have there been digits, their number, how many
    after the point, and the rest. *)
Fixpoint read_mantissa (base : Z) (s : list Z) (sawdot sawdigits : bool) (n f : Z) : bool * Z * Z * list Z :=
  match s with
  | [] => (sawdigits, n, f, s)
  | c :: s' =>
      if c =? 95 then read_mantissa base s' sawdot sawdigits n f
      else if c =? 46 then
        if sawdot then (sawdigits, n, f, s) else read_mantissa base s' true sawdigits n f
      else match digit_in base c with
           | Some d => read_mantissa base s' sawdot true (n * base + d) (if sawdot then f + 1 else f)
           | None => (sawdigits, n, f, s)
           end
  end.
(** Digits and underscores of the exponent; it stops growing above 10000. *)
Fixpoint read_exponent (s : list Z) (e : Z) : Z * list Z :=
  match s with
  | [] => (e, s)
  | c :: s' =>
      if c =? 95 then read_exponent s' e
      else if is_digit c then read_exponent s' (if e <? 10000 then e * 10 + (c - 48) else e)
      else (e, s)
  end.
(** underscoreOK of atoi.go: underscores stand between digits (or after a base prefix). *)
Inductive seen := Begin | Digit | Underscore | Other.
Fixpoint underscores_ok (hex : bool) (s : list Z) (saw : seen) : bool :=
  match s with
  | [] => match saw with Underscore => false | _ => true end
  | c :: s' =>
      if is_digit c || (hex && (97 <=? lower c) && (lower c <=? 102)) then underscores_ok hex s' Digit
      else if c =? 95 then match saw with Digit => underscores_ok hex s' Underscore | _ => false end
      else match saw with Underscore => false | _ => underscores_ok hex s' Other end
  end.
Definition underscoreOK (s : list Z) : bool :=
  match s with
  | 48 :: x :: s' =>
      if (lower x =? 98) || (lower x =? 111) || (lower x =? 120) then underscores_ok (lower x =? 120) s' Digit
      else underscores_ok false s Begin
  | _ => underscores_ok false s Begin
  end.
(** The sign of a text and the rest. *)
Definition cut_sign (s : list Z) : bool * list Z :=
  match s with
  | 45 :: r => (true, r)
  | 43 :: r => (false, r)
  | _ => (false, s)
  end.
(** [readFloat] and the rounding that follows, after the sign. *)
Definition read_number (neg : bool) (s : list Z) : option spec_float :=
  let '(hex, body) := match s with
                      | 48 :: x :: c :: r => if lower x =? 120 then (true, c :: r) else (false, s)
                      | _ => (false, s)
                      end in
  let base := if hex then 16 else 10 in
  let '(sawdigits, n, f, rest) := read_mantissa base body false false 0 0 in
  let finish e := let r := if hex then round_scaled 53 1024 2 neg n (e - 4 * f) else round_scaled 53 1024 10 neg n (e - f) in
                  match r with S754_infinity _ => None | _ => Some r end in
  if sawdigits && underscoreOK s then
    match rest with
    | [] => if hex then None else finish 0
    | x :: r =>
        if lower x =? (if hex then 112 else 101) then
          let '(eneg, r) := cut_sign r in
          match r with
          | c :: _ => if is_digit c then
                        let '(e, r') := read_exponent r 0 in
                        match r' with [] => finish (if eneg then - e else e) | _ => None end
                      else None
          | [] => None
          end
        else None
    end
  else None.
Fixpoint same_letters (s t : list Z) : bool :=
  match s, t with
  | [], [] => true
  | c :: s', d :: t' => (lower c =? d) && same_letters s' t'
  | _, _ => false
  end.
Definition inf_text : list Z := [105; 110; 102].
Definition infinity_text : list Z := [105; 110; 102; 105; 110; 105; 116; 121].
Definition nan_text : list Z := [110; 97; 110].
Definition ParseFloat (s : list Z) : option spec_float :=
  let '(neg, body) := cut_sign s in
  if same_letters body inf_text || same_letters body infinity_text then Some (S754_infinity neg)
  else if same_letters s nan_text then Some S754_nan
  else read_number neg body.
(** string.go:143-151. *)
Definition ParseF64 (self : list Z) : option spec_float := ParseFloat self.
