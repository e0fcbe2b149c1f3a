(** IntModel.v -- the ten fixed-width integer types of gost and their methods.

    Models primitive.go:6-20 (types), const.go (bounds), ops.go (arithmetic,
    checked/wrapping/saturating methods, Abs, AbsDiff, sign tests, Pow, Neg)
    and bitwise.go (Shl, Shr).

    In the Go source each method is written out once per type.  Where the
    bodies are textually identical up to the type name and its own
    MinInt/MaxInt/MaxUint constant, one definition parameterised by the type tag
    stands for all of them; where a type's body differs, the definition matches
    on the tag.  Byte (= uint8) and Char (= int32) have the same Add, Sub, Mul,
    Div bodies as U8 and I32 (ops.go:152-158, 241-247, 358-364, 507-513).

    Simplification: [int]/[uint] are 64 bits wide (GOARCH amd64/arm64). *)
From Verif Require Import Base.
Local Open Scope Z_scope.
Local Open Scope bool_scope.

(** primitive.go:6-10, 16-20: the integer types. *)
Inductive ity := ISize | I8 | I16 | I32 | I64 | USize | U8 | U16 | U32 | U64.

(** Signedness and width of the underlying Go types (primitive.go:6-20). *)
Definition signed (t : ity) : bool :=
  match t with ISize | I8 | I16 | I32 | I64 => true | _ => false end.

Definition width (t : ity) : Z :=
  match t with
  | I8 | U8 => 8 | I16 | U16 => 16 | I32 | U32 => 32
  | I64 | U64 | ISize | USize => 64
  end.

(** const.go:5-51: [*_MIN] and [*_MAX]. *)
Definition MIN (t : ity) : Z := if signed t then - 2 ^ (width t - 1) else 0.
Definition MAX (t : ity) : Z := if signed t then 2 ^ (width t - 1) - 1 else 2 ^ width t - 1.

(** Go's integer overflow rule (language semantics): results are reduced modulo
    2^width into the type's range. *)
Definition wrap (t : ity) (z : Z) : Z :=
  if signed t then (z + 2 ^ (width t - 1)) mod 2 ^ width t - 2 ^ (width t - 1)
  else z mod 2 ^ width t.

(** ops.go:64-82, 108-126 (Byte 152, Char 156): [self + rhs]. *)
Definition Add (t : ity) (a b : Z) : Z := wrap t (a + b).
(** ops.go:173-191, 199-217 (Byte 241, Char 245): [self - rhs]. *)
Definition Sub (t : ity) (a b : Z) : Z := wrap t (a - b).
(** ops.go:258-276, 312-330 (Byte 358, Char 362): [self * rhs]. *)
Definition Mul (t : ity) (a b : Z) : Z := wrap t (a * b).
(** ops.go:375-393, 445-463 (Byte 507, Char 511): [self / rhs]; Go truncates
    toward zero, panics on a zero divisor, and MIN / -1 wraps to MIN. *)
Definition Div (t : ity) (a b : Z) : out Z :=
  if b =? 0 then Panic else Ret (wrap t (Z.quot a b)).
(** ops.go:524-542, 599-617: [self % rhs]. *)
Definition Rem (t : ity) (a b : Z) : out Z :=
  if b =? 0 then Panic else Ret (wrap t (Z.rem a b)).

(** ops.go:655-697: AddAssign, [*self += rhs]; the new value of the receiver. *)
Definition AddAssign (t : ity) (a b : Z) : Z := wrap t (a + b).
(** ops.go:732-774: SubAssign. *)
Definition SubAssign (t : ity) (a b : Z) : Z := wrap t (a - b).
(** ops.go:805-847: MulAssign. *)
Definition MulAssign (t : ity) (a b : Z) : Z := wrap t (a * b).
(** ops.go:878-920: DivAssign. *)
Definition DivAssign (t : ity) (a b : Z) : out Z :=
  if b =? 0 then Panic else Ret (wrap t (Z.quot a b)).
(** ops.go:951-993: RemAssign. *)
Definition RemAssign (t : ity) (a b : Z) : out Z :=
  if b =? 0 then Panic else Ret (wrap t (Z.rem a b)).

(** ops.go:999-1047: [_HasOverflow_Add] of the signed types. *)
Definition HasOverflow_Add (t : ity) (a b : Z) : bool :=
  if (0 <? a) && (wrap t (MAX t - a) <? b) then true
  else if (a <? 0) && (b <? wrap t (MIN t - a)) then true
  else false.

(** ops.go:1049-1057 (ISize) and 1059-1097 (I8..I64): the two bodies differ. *)
Definition HasOverflow_Sub (t : ity) (a b : Z) : bool :=
  match t with
  | ISize =>
      if (b <? 0) && (wrap t (MAX t + b) <? a) then true
      else if (0 <? b) && (a <? wrap t (MIN t + b)) then true
      else false
  | _ =>
      if (0 <? a) && (b <? wrap t (MIN t + a)) then true
      else if (a <? 0) && (wrap t (MAX t + a) <? b) then true
      else false
  end.

(** ops.go:1099-1132 (unsigned), 1134-1142 (ISize, which uses
    math.MinInt32/math.MaxInt32), 1144-1182 (I8..I64). *)
Definition HasUnderflow_Sub (t : ity) (a b : Z) : bool :=
  match t with
  | USize | U8 | U16 | U32 | U64 => a <? b
  | ISize =>
      if (0 <? b) && (a <? wrap t (-2147483648 + b)) then true
      else if (b <? 0) && (wrap t (2147483647 + b) <? a) then true
      else false
  | _ =>
      if (0 <? b) && (a <? wrap t (MIN t + b)) then true
      else if (b <? 0) && (wrap t (MAX t + b) <? a) then true
      else false
  end.

(** ops.go:1184-1307 (signed), 1309-1314 (USize, which uses math.MaxUint32),
    1316-1342 (U8..U64).  Every division here has a non-zero divisor. *)
Definition HasOverflow_Mul (t : ity) (a b : Z) : bool :=
  match t with
  | USize => negb (a =? 0) && (Z.quot 4294967295 a <? b)
  | U8 | U16 | U32 | U64 => negb (a =? 0) && (Z.quot (MAX t) a <? b)
  | _ =>
      if 0 <? a then
        if 0 <? b then Z.quot (MAX t) b <? a
        else b <? Z.quot (MAX t) a
      else
        if 0 <? b then a <? Z.quot (MAX t) b
        else negb (a =? 0) && (b <? Z.quot (MAX t) a)
  end.

(** ops.go:1344-1402: [_HasOverflow_Div] of the signed types. *)
Definition HasOverflow_Div (t : ity) (a b : Z) : bool :=
  if b =? 0 then true
  else if (a =? MIN t) && (b =? -1) then true
  else false.

(** ops.go:1405-1433 (signed), 1435-1483 (unsigned, with its "fix-up"). *)
Definition WrappingAdd (t : ity) (a b : Z) : Z :=
  let result := wrap t (a + b) in
  if signed t then result
  else if (result <? a) || (result <? b)
       then wrap t (wrap t (result - MAX t) - 1)
       else result.

(** ops.go:1486-1544. *)
Definition WrappingSub (t : ity) (a b : Z) : Z := wrap t (a - b).

(** ops.go:1547-1555 (ISize, with its "wrap around" branch), 1557-1609. *)
Definition WrappingMul (t : ity) (a b : Z) : Z :=
  let result := wrap t (a * b) in
  match t with
  | ISize => if (result <? a) || (result <? b)
             then wrap t (wrap t (result - MAX t) - 1)
             else result
  | _ => result
  end.

(** ops.go:1612-1670. *)
Definition WrappingDiv (t : ity) (a b : Z) : out Z :=
  if b =? 0 then Panic else Ret (wrap t (Z.quot a b)).

(** ops.go:1673-1721 (signed), 1723-1771 (unsigned). *)
Definition CheckedAdd (t : ity) (a b : Z) : option Z :=
  let result := wrap t (a + b) in
  if signed t then
    if HasOverflow_Add t a b then None else Some result
  else
    if (result <? a) || (result <? b) then None else Some result.

(** ops.go:1774-1782 (ISize), 1784-1821 (I8..I64: note [_HasOverflow_Add]),
    1823-1871 (unsigned). *)
Definition CheckedSub (t : ity) (a b : Z) : option Z :=
  let result := wrap t (a - b) in
  match t with
  | ISize => if HasOverflow_Sub t a b || HasUnderflow_Sub t a b then None else Some result
  | I8 | I16 | I32 | I64 =>
      if HasOverflow_Add t a b || HasUnderflow_Sub t a b then None else Some result
  | _ => if HasUnderflow_Sub t a b then None else Some result
  end.

(** ops.go:1874-1972. *)
Definition CheckedMul (t : ity) (a b : Z) : option Z :=
  let result := wrap t (a * b) in
  if HasOverflow_Mul t a b then None else Some result.

(** ops.go:1975-2028 (signed), 2030-2078 (unsigned). *)
Definition CheckedDiv (t : ity) (a b : Z) : out (option Z) :=
  if signed t then
    if HasOverflow_Div t a b then Ret None
    else r <- Div t a b ;; Ret (Some r)
  else
    if b =? 0 then Ret None
    else r <- Div t a b ;; Ret (Some r).

(** ops.go:2081-2219. *)
Definition CheckedRem (t : ity) (a b : Z) : out (option Z) :=
  if b =? 0 then Ret None
  else
    result <- Rem t a b ;;
    if (a <? result) || (b <? result) then Ret None else Ret (Some result).

(** ops.go:2222-2276 (signed), 2278-2331 (unsigned). *)
Definition SaturatingAdd (t : ity) (a b : Z) : Z :=
  if signed t then
    if HasOverflow_Add t a b then (if a <? 0 then MIN t else MAX t)
    else wrap t (a + b)
  else
    let result := wrap t (a + b) in
    if (result <? a) || (result <? b) then MAX t else result.

(** ops.go:2334-2397 (signed), 2399-2444 (unsigned). *)
Definition SaturatingSub (t : ity) (a b : Z) : Z :=
  let result := wrap t (a - b) in
  if signed t then
    if HasOverflow_Sub t a b || HasUnderflow_Sub t a b
    then (if a <? 0 then MIN t else MAX t)
    else result
  else if a <? b then 0 else result.

(** ops.go:2447-2500 (signed), 2502-2555 (unsigned). *)
Definition SaturatingMul (t : ity) (a b : Z) : Z :=
  if signed t then
    if HasOverflow_Mul t a b then (if a <? 0 then MIN t else MAX t)
    else wrap t (a * b)
  else
    let result := wrap t (a * b) in
    if HasOverflow_Mul t a b then MAX t else result.

(** ops.go:2558-2641 (signed), 2643-2691 (unsigned). *)
Definition SaturatingDiv (t : ity) (a b : Z) : out Z :=
  if signed t then
    if HasOverflow_Div t a b then
      if (a =? MIN t) && (b =? -1) then Ret (MAX t)
      else if a <? 0 then Ret (MIN t)
      else Ret (MAX t)
    else Div t a b
  else
    if b =? 0 then Ret 0 else Div t a b.

(** ops.go:2694-2731 (signed types only). *)
Definition Abs (t : ity) (a : Z) : Z := if a <? 0 then wrap t (- a) else a.

(** The unsigned type of the same width: result type of AbsDiff (ops.go:2743-2829). *)
Definition unsigned_of (t : ity) : ity :=
  match t with
  | ISize => USize | I8 => U8 | I16 => U16 | I32 => U32 | I64 => U64
  | u => u
  end.

(** ops.go:2743-2829: the difference is computed in the receiver's type and then
    converted to the unsigned type (a reinterpretation modulo 2^width). *)
Definition AbsDiff (t : ity) (a b : Z) : Z :=
  if b <? a then wrap (unsigned_of t) (wrap t (a - b))
  else wrap (unsigned_of t) (wrap t (b - a)).

(** ops.go:2832-2854 and 2862-2884. *)
Definition IsPositive (a : Z) : bool := 0 <? a.
Definition IsNegative (a : Z) : bool := a <? 0.

(** ops.go:2892-3029: recursive squaring.  [fuel] bounds the recursion depth;
    [Pow] starts with 33, one more than the number of bits of a U32 exponent. *)
Fixpoint pow_go (fuel : nat) (t : ity) (a e : Z) : out Z :=
  match fuel with
  | O => Diverge
  | S k =>
      if e =? 0 then Ret 1
      else if e =? 1 then Ret a
      else if e mod 2 =? 0 then pow_go k t (wrap t (a * a)) (e / 2)
      else r <- pow_go k t (wrap t (a * a)) (e / 2) ;; Ret (wrap t (a * r))
  end.
Definition Pow (t : ity) (a e : Z) : out Z := pow_go 33 t a e.

(** ops.go:3031-3049: [Neg(rhs)] ignores its argument. *)
Definition Neg (t : ity) (a rhs : Z) : Z := wrap t (- a).

(** Go's shift operators (language semantics): a negative count panics, counts
    of at least the width shift everything out. *)
Definition go_shl (t : ity) (x n : Z) : out Z :=
  if n <? 0 then Panic
  else if width t <=? n then Ret 0
  else Ret (wrap t (x * 2 ^ n)).
Definition go_shr (t : ity) (x n : Z) : out Z :=
  if n <? 0 then Panic
  else if width t <=? n then Ret (if x <? 0 then -1 else 0)
  else Ret (x / 2 ^ n).

(** bitwise.go:11-29, 52-70: [lhs << lhs] -- the argument is not used. *)
Definition Shl (t : ity) (lhs rhs : Z) : out Z := go_shl t lhs lhs.
(** bitwise.go:93-111, 134-152: [lhs >> lhs]. *)
Definition Shr (t : ity) (lhs rhs : Z) : out Z := go_shr t lhs lhs.
