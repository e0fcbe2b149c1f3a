(** CostSpec.v -- how often a method calls the user's function (C120). *)
From Verif Require Import Base PanicSpec.

(** f, with a count of its calls next to its own state; a call that panics counts. *)
Definition counted {U A B} (f : user U A B) : user (nat * U) A B :=
  fun a c => let '(n, u) := c in let (u', r) := f a u in ((n + 1, u'), r).

(** Run with the counter at 0, the method m has called f at most k times when it returns or panics. *)
Definition calls_at_most {D U A B R} (k : nat) (m : user (nat * U) A B -> D * (nat * U) -> (D * (nat * U)) * option R)
    (f : user U A B) (d : D) : Prop :=
  forall u, let '((_, (n, _)), _) := m (counted f) (d, (0, u)) in n <= k.
