(** DecimalModel.v -- decimal text: the parts of Go's strconv and math/big that
    gost calls, and gost's own ToString and Parse methods for 64-bit and
    narrower integers.

    A Go string is a [list Z] of bytes ('0' = 48, '-' = 45, '+' = 43). *)
From Verif Require Import Base IntModel.
Local Open Scope Z_scope.
Local Open Scope bool_scope.

(** Decimal digits of a non-negative number, most significant first, by repeated
    division by ten; [fuel] only has to exceed the number of digits. *)
Fixpoint digits_go (fuel : nat) (n : Z) (acc : list Z) : list Z :=
  match fuel with
  | O => acc
  | S k => if n <? 10 then (48 + n) :: acc
           else digits_go k (n / 10) ((48 + n mod 10) :: acc)
  end.
Definition digits (n : Z) : list Z := digits_go (S (Z.to_nat (Z.log2 n))) n [].

(** Go standard library, modelled by its documentation: strconv.FormatUint(n, 10). *)
Definition FormatUint (n : Z) : list Z := digits n.
(** strconv.Itoa, and (big.Int).String for a value [z]. *)
Definition Itoa (z : Z) : list Z := if z <? 0 then 45 :: digits (- z) else digits z.

(** to_string.go:24-42, 73-91 (and Byte 124, Char 128 with the tag U8/I32):
    every type but U64 converts to Go's [int] first ([wrap I64]: int is 64 bits). *)
Definition ToString (t : ity) (x : Z) : list Z :=
  match t with
  | U64 => FormatUint x
  | _ => Itoa (wrap I64 x)
  end.

(** fmt.go:13-59 (and 69, 73): Display is ToString. *)
Definition Display (t : ity) (x : Z) : list Z := ToString t x.

(** to_string.go:136-138: strconv.FormatBool. *)
Definition Bool_ToString (b : bool) : list Z :=
  if b then [116; 114; 117; 101] else [102; 97; 108; 115; 101].

Definition is_digit (c : Z) : bool := (48 <=? c) && (c <=? 57).

(** Value of a digit string (no check). *)
Fixpoint digits_value (acc : Z) (s : list Z) : Z :=
  match s with [] => acc | c :: s' => digits_value (10 * acc + (c - 48)) s' end.

(** Optional sign, then one or more decimal digits: common to strconv.Atoi and
    (big.Int).SetString(s, 10) (Go standard library, by its documentation). *)
Definition parse_decimal (s : list Z) : option Z :=
  let '(neg, body) := match s with
                      | 45 :: r => (true, r)
                      | 43 :: r => (false, r)
                      | _ => (false, s)
                      end in
  match body with
  | [] => None
  | _ => if forallb is_digit body
         then Some (if neg then - digits_value 0 body else digits_value 0 body)
         else None
  end.

(** strconv.Atoi: a syntax or a range error otherwise. *)
Definition Atoi (s : list Z) : option Z :=
  match parse_decimal s with
  | Some z => if (MIN I64 <=? z) && (z <=? MAX I64) then Some z else None
  | None => None
  end.

(** string.go:121-129: ParseI64 ([None] stands for the [Err] result). *)
Definition ParseI64 (s : list Z) : option Z :=
  match Atoi s with Some z => Some (wrap I64 z) | None => None end.
(** string.go:132-140: ParseU64 also goes through Atoi. *)
Definition ParseU64 (s : list Z) : option Z :=
  match Atoi s with Some z => Some (wrap U64 z) | None => None end.
