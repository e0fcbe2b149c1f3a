(** BTreeIterSpec.v -- the closures and iterators that C80 speaks of. *)
From Verif Require Import Base Effect HashModel BTreeIterModel.
Local Open Scope Z_scope.

(** A closure that does not use the iterator. *)
Definition off {T S A} (m : M S A) : M (world T S) A := fun w =>
  match m (snd w) with Ret (a, s') => Ret (a, (fst w, s')) | Panic => Panic | Diverge => Diverge end.
(** An iterator over v that has delivered everything. *)
Definition spent {T} (v : list T) : cursor T := mkCursor v (Z.of_nat (length v)).
(** An iterator over v that has delivered the first n elements, or all. *)
Definition after {T} (n : nat) (v : list T) : cursor T := mkCursor v (Z.of_nat (Nat.min n (length v))).
(** A closure that always comes back, and that uses the iterator, if at all, by calling
    its methods: these never replace the buffer and never move the position back. *)
Definition forward {T S A} (m : M (world T S) A) : Prop := forall it s, 0 <= position it <= Z.of_nat (length (vec it)) ->
  m (it, s) <> Diverge /\
  forall a it' s', m (it, s) = Ret (a, (it', s')) ->
    vec it' = vec it /\ position it <= position it' <= Z.of_nat (length (vec it)).
