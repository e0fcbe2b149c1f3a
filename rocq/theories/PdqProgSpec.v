(** PdqProgSpec.v -- how often SortUnstable and SortUnstableBy compare at most, for a
    comparison that may answer anything (C125). *)
From Verif Require Import Base.

Definition unstable_bound (n : nat) : nat := 9 * n * n.
