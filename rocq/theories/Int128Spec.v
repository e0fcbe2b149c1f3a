(** Int128Spec.v -- what a 128-bit value denotes.  Independent of the model
    except for the record types. *)
From Coq Require Import ZArith.
From Verif Require Import Int128Model.
Local Open Scope Z_scope.

(** Well-formed words (what the Go field types guarantee). *)
Definition uvalid (x : U128) : Prop := 0 <= uhigh x < 2 ^ 64 /\ 0 <= ulow x < 2 ^ 64.
Definition ivalid (x : I128) : Prop := - 2 ^ 63 <= ihigh x < 2 ^ 63 /\ 0 <= ilow x < 2 ^ 64.

(** The number denoted. *)
Definition uval (x : U128) : Z := uhigh x * 2 ^ 64 + ulow x.
Definition ival (x : I128) : Z := ihigh x * 2 ^ 64 + ilow x.

(** [x] is the 128-bit result of computing [z]: well formed and congruent to [z]
    modulo 2^128. *)
Definition is_u128 (x : U128) (z : Z) : Prop := uvalid x /\ exists k, z = uval x + k * 2 ^ 128.
Definition is_i128 (x : I128) (z : Z) : Prop := ivalid x /\ exists k, z = ival x + k * 2 ^ 128.

(** The inputs on which two's-complement negation needs a carry the code gets
    wrong: the low 64 bits are all zeros or all ones. *)
Definition awkward (z : Z) : Prop := z mod 2 ^ 64 = 0 \/ z mod 2 ^ 64 = 2 ^ 64 - 1.
