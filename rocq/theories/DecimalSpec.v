(** DecimalSpec.v -- decimal numerals, independent of the model.  Strings are
    byte lists; '0'..'9' are 48..57, '-' is 45, '+' is 43. *)
From Coq Require Import List ZArith.
Import ListNotations.
Local Open Scope Z_scope.

Definition digit_char (c : Z) : Prop := 48 <= c <= 57.

(** The number a string of digits denotes (Horner). *)
Definition value_of (s : list Z) : Z := fold_left (fun acc c => 10 * acc + (c - 48)) s 0.

(** [s] is the canonical numeral of the natural number [n]: only digits, at
    least one, no leading zero except for "0" itself. *)
Definition canonical_nat (s : list Z) (n : Z) : Prop :=
  s <> [] /\ Forall digit_char s /\ (forall r, s = 48 :: r -> r = []) /\ value_of s = n.

(** [s] is the canonical numeral of the integer [z]. *)
Definition canonical (s : list Z) (z : Z) : Prop :=
  (0 <= z /\ canonical_nat s z) \/ (z < 0 /\ exists s', s = 45 :: s' /\ canonical_nat s' (- z)).

(** [s] is an optionally signed decimal numeral (leading zeros allowed) of [z]. *)
Definition decimal_text (s : list Z) (z : Z) : Prop :=
  exists body, body <> [] /\ Forall digit_char body /\
    ((s = body /\ z = value_of body) \/ (s = 43 :: body /\ z = value_of body) \/
     (s = 45 :: body /\ z = - value_of body)).
