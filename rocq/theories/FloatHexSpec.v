(** FloatHexSpec.v -- hexadecimal numerals with an exponent of 2, and underscores in
    numerals, independent of the model.  Strings are byte lists: '+' 43, '-' 45, '.' 46,
    '0' 48, 'A'..'F' 65..70, 'P' 80, 'X' 88, '_' 95, 'a'..'f' 97..102, 'p' 112, 'x' 120. *)
From Coq Require Import List ZArith QArith.
From Verif Require Import DecimalSpec FloatTextSpec.
Import ListNotations.
Local Open Scope Z_scope.

Definition hex_char (c : Z) : Prop := 48 <= c <= 57 \/ 65 <= c <= 70 \/ 97 <= c <= 102.
Definition hex_digit (c : Z) : Z := if c <=? 57 then c - 48 else if c <=? 70 then c - 55 else c - 87.
(** The number a string of hexadecimal digits denotes. *)
Definition hex_value (s : list Z) : Z := fold_left (fun acc c => 16 * acc + hex_digit c) s 0.
(** D * 2^K. *)
Definition scaled2 (D K : Z) : Q := (inject_Z D * 2 ^ K)%Q.
(** [s] is a hexadecimal numeral: a sign, "0x" or "0X", hexadecimal digits with or without
    a point, and 'p' or 'P' with an exponent in decimal digits, which may not be missing.
    It denotes [d] * 2^([e] - 4 [f]), negated if [neg]: all the digits, [f] of them after
    the point, and the written exponent. *)
Definition hex_numeral (s : list Z) (neg : bool) (d f e : Z) : Prop :=
  exists sign x ip point fp p es ds, s = sign ++ 48 :: x :: ip ++ point ++ fp ++ p :: es ++ ds /\
    ((sign = [] /\ neg = false) \/ (sign = [43] /\ neg = false) \/ (sign = [45] /\ neg = true)) /\
    (x = 120 \/ x = 88) /\ (p = 112 \/ p = 80) /\
    Forall hex_char ip /\ Forall hex_char fp /\ ip ++ fp <> [] /\
    (point = [46] \/ (point = [] /\ fp = [])) /\
    d = hex_value (ip ++ fp) /\ f = Z.of_nat (length fp) /\
    ds <> [] /\ Forall digit_char ds /\
    (((es = [] \/ es = [43]) /\ e = value_of ds) \/ (es = [45] /\ e = - value_of ds)).
(** A digit of the text [s]: in hexadecimal notation A to F are digits too. *)
Definition digit_of (s : list Z) (c : Z) : Prop := digit_char c \/ (hexadecimal s /\ hex_char c).
(** Every underscore stands between two digits, or between "0x" and a digit. *)
Definition grouped (s : list Z) : Prop :=
  forall a b, s = a ++ 95 :: b ->
    ((exists a' c, a = a' ++ [c] /\ digit_of s c) \/
     (exists sign x, (sign = [] \/ sign = [43] \/ sign = [45]) /\ (x = 120 \/ x = 88) /\ a = sign ++ [48; x])) /\
    (exists c b', b = c :: b' /\ digit_of s c).
(** The text without its underscores. *)
Definition ungrouped (s : list Z) : list Z := filter (fun c => negb (c =? 95)) s.
