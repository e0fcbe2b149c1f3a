(** IntSpec.v -- what the English properties of the integer methods mean.
    Independent of the model except for the names of the ten types. *)
From Coq Require Import ZArith Lia.
From Verif Require Import IntModel.
Local Open Scope Z_scope.

(** Numerical range of each type, as literals. *)
Definition lowest (t : ity) : Z :=
  match t with
  | I8 => -128 | I16 => -32768 | I32 => -2147483648
  | I64 | ISize => -9223372036854775808
  | _ => 0
  end.
Definition highest (t : ity) : Z :=
  match t with
  | I8 => 127 | I16 => 32767 | I32 => 2147483647
  | I64 | ISize => 9223372036854775807
  | U8 => 255 | U16 => 65535 | U32 => 4294967295
  | U64 | USize => 18446744073709551615
  end.

(** [z] is a value of type [t]. *)
Definition in_range (t : ity) (z : Z) : Prop := lowest t <= z <= highest t.

(** Number of values of the type: 2^width. *)
Definition modulus (t : ity) : Z := highest t - lowest t + 1.

(** [r] is the result of computing [z] in wrapping (two's complement) arithmetic. *)
Definition wraps_to (t : ity) (z r : Z) : Prop :=
  in_range t r /\ exists k, z = r + k * modulus t.

(** [z] clamped to the type's range. *)
Definition clamp (t : ity) (z : Z) : Z := Z.max (lowest t) (Z.min (highest t) z).

(** A checked operation is exact: [Some z] if [z] is representable, else [None]. *)
Definition exact (t : ity) (z : Z) (r : option Z) : Prop :=
  (in_range t z -> r = Some z) /\ (~ in_range t z -> r = None).

(** A checked operation is sound: it never returns a wrong value and never
    misses an overflow (it may still refuse). *)
Definition sound (t : ity) (z : Z) (r : option Z) : Prop :=
  forall v, r = Some v -> v = z /\ in_range t z.
