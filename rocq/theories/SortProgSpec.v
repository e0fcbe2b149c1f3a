(** SortProgSpec.v -- sorting with a comparison that has a state of its own, may answer
    differently each time and may panic (C124). *)
From Verif Require Import Base PanicSpec.

(** f never panics, and its answers are those of g, whatever its state is. *)
Definition answers_like {U A B} (f : user U A B) (g : A -> B) : Prop := forall a u, snd (f a u) = Some (g a).
(** f, with a note next to its state of whether it has panicked. *)
Definition watched {U A B} (f : user U A B) : user (bool * U) A B :=
  fun a c => let '(p, u) := c in let (u', r) := f a u in ((match r with None => true | Some _ => p end, u'), r).

(** How often Sort and SortBy compare at most: blocks of 20 are sorted by insertion, and
    each of the merging passes that follow compares at most twice per element. *)
Definition stable_bound (n : nat) : nat := 19 * n / 2 + 2 * n * Nat.log2 ((n - 1) / 10).
