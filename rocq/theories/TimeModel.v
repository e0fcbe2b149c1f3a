(** TimeModel.v -- time.go (Duration) and thread.go:11-22 (Sleep). *)
From Verif Require Import Base IntModel DecimalModel Int128Model.
Local Open Scope Z_scope.
Local Open Scope bool_scope.

(** time.go:5-8. *)
Record Duration := mkD { seconds : Z; nanoseconds : Z }.

(** time.go:10-14. *)
Definition NANOS_PER_SEC : Z := 1000000000.
Definition NANOS_PER_MILLI : Z := 1000000.
Definition NANOS_PER_MICRO : Z := 1000.
Definition MILLIS_PER_SEC : Z := 1000.
Definition MICROS_PER_SEC : Z := 1000000.

(** time.go:18-25.  [Expect] on [None] panics. *)
Definition DurationNew (secs nanos : Z) : out Duration :=
  let s := wrap U64 (Z.quot nanos NANOS_PER_SEC) in
  t <- of_option (CheckedAdd U64 secs s) ;;
  Ret (mkD t (Z.rem nanos 1000000000)).
(** time.go:28-30. *)
Definition DurationFromSecs (secs : Z) : out Duration := DurationNew secs 0.
(** time.go:33-35.  The product is computed in U32. *)
Definition DurationFromMillis (millis : Z) : out Duration :=
  DurationNew (Z.quot millis MILLIS_PER_SEC)
              (wrap U32 (wrap U32 (Z.rem millis MILLIS_PER_SEC) * NANOS_PER_MILLI)).
(** time.go:38-40. *)
Definition DurationFromMicros (micros : Z) : out Duration :=
  DurationNew (Z.quot micros MICROS_PER_SEC)
              (wrap U32 (wrap U32 (Z.rem micros MICROS_PER_SEC) * NANOS_PER_MICRO)).
(** time.go:43-45. *)
Definition DurationFromNanos (nanos : Z) : out Duration :=
  DurationNew (Z.quot nanos NANOS_PER_SEC) (wrap U32 (Z.rem nanos NANOS_PER_SEC)).

(** time.go:48-50. *)
Definition IsZero (d : Duration) : bool := (seconds d =? 0) && (nanoseconds d =? 0).
(** time.go:54-56. *)
Definition AsSecs (d : Duration) : Z := seconds d.
(** time.go:61-63, 68-70, 75-77. *)
Definition SubsecMillis (d : Duration) : Z := Z.quot (nanoseconds d) NANOS_PER_MILLI.
Definition SubsecMicros (d : Duration) : Z := Z.quot (nanoseconds d) NANOS_PER_MICRO.
Definition SubsecNanos (d : Duration) : Z := nanoseconds d.
(** time.go:80-82, 85-87, 90-92. *)
Definition AsMillis (d : Duration) : U128 :=
  U128_Add (U128_Mul (U128_FromU64 (seconds d)) (U128_FromU64 MILLIS_PER_SEC))
           (U128_FromU64 (Z.quot (nanoseconds d) NANOS_PER_MILLI)).
Definition AsMicros (d : Duration) : U128 :=
  U128_Add (U128_Mul (U128_FromU64 (seconds d)) (U128_FromU64 MICROS_PER_SEC))
           (U128_FromU64 (Z.quot (nanoseconds d) NANOS_PER_MICRO)).
Definition AsNanos (d : Duration) : U128 :=
  U128_Add (U128_Mul (U128_FromU64 (seconds d)) (U128_FromU64 NANOS_PER_SEC))
           (U128_FromU64 (nanoseconds d)).

(** Go standard library, time.ParseDuration (time/format.go): the leading integer.
    [None] is the overflow error; otherwise the value and the rest. *)
Fixpoint leadingInt (x : Z) (s : list Z) : option (Z * list Z) :=
  match s with
  | [] => Some (x, [])
  | c :: r =>
      if is_digit c then
        if 2 ^ 63 / 10 <? x then None
        else let x' := x * 10 + (c - 48) in
             if 2 ^ 63 <? x' then None else leadingInt x' r
      else Some (x, s)
  end.
(** The unit: everything up to the next digit or dot. *)
Fixpoint take_unit (s : list Z) : list Z * list Z :=
  match s with
  | [] => ([], [])
  | c :: r => if is_digit c || (c =? 46) then ([], s)
              else let '(u, rest) := take_unit r in (c :: u, rest)
  end.
Definition bytes_eqb (a b : list Z) : bool :=
  if list_eq_dec Z.eq_dec a b then true else false.
(** unitMap of time/format.go ("ns", "us", "ms", "s", "m", "h"; the two spellings of
    the micro sign are left out). *)
Definition unit_ns (u : list Z) : option Z :=
  if bytes_eqb u [110; 115] then Some 1
  else if bytes_eqb u [117; 115] then Some 1000
  else if bytes_eqb u [109; 115] then Some 1000000
  else if bytes_eqb u [115] then Some 1000000000
  else if bytes_eqb u [109] then Some 60000000000
  else if bytes_eqb u [104] then Some 3600000000000
  else None.
(** The loop of time.ParseDuration, without signs and fractions (a dot is an error
    here; gost never produces one).  [None] = error. *)
Fixpoint parse_duration_go (fuel : nat) (d : Z) (s : list Z) : option Z :=
  match fuel with
  | O => None
  | S k =>
      match s with
      | [] => if 2 ^ 63 - 1 <? d then None else Some d
      | c :: _ =>
          if negb (is_digit c) then None
          else match leadingInt 0 s with
               | None => None
               | Some (v, r) =>
                   let '(u, rest) := take_unit r in
                   match unit_ns u with
                   | None => None
                   | Some unit =>
                       if 2 ^ 63 / unit <? v then None
                       else let d' := d + v * unit in
                            if 2 ^ 63 <? d' then None else parse_duration_go k d' rest
                   end
               end
      end
  end.
Definition ParseDuration (s : list Z) : option Z :=
  match s with
  | [] => None
  | _ => if bytes_eqb s [48] then Some 0 else parse_duration_go (S (length s)) 0 s
  end.

(** thread.go:12: fmt.Sprintf("%ds%dns", seconds, nanoseconds). *)
Definition duration_string (d : Duration) : list Z :=
  Itoa (seconds d) ++ [115] ++ Itoa (nanoseconds d) ++ [110; 115].

(** thread.go:11-22.  The returned value is the argument of time.Sleep, in
    nanoseconds. *)
Definition Sleep (d : Duration) : out Z := of_option (ParseDuration (duration_string d)).
