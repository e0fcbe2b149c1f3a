(** TimeSpec.v -- what a Duration denotes. *)
From Coq Require Import ZArith.
From Verif Require Import TimeModel.
Local Open Scope Z_scope.

(** Total length in nanoseconds. *)
Definition total (d : Duration) : Z := seconds d * 10 ^ 9 + nanoseconds d.

(** The field types, and a normalised sub-second part. *)
Definition dvalid (d : Duration) : Prop :=
  0 <= seconds d < 2 ^ 64 /\ 0 <= nanoseconds d < 10 ^ 9.
