(** DequeSortModel.v -- VecDeque's sorts (vec_deque.go:493-505, 527-531, 542-554, 576-580) with
    a comparison that has a state and may panic: the programs of SortProgModel.v and
    PdqProgModel.v on the first len cells of the buffer, where the calls of less read too. *)
From Verif Require Import Base PanicSpec SortProgModel PdqProgModel.
From Verif Require DequeModel.

Section Sorts.
  Context {T U : Type}.
  Notation VecDeque := (DequeModel.VecDeque T).
  (** What the sort did to self.buffer[:self.len] stays, also when the comparison panicked. *)
  Definition on_buffer (sort : list T -> U -> out ((list T * U) * option unit)) (d : VecDeque) (u : U) : out ((VecDeque * U) * option unit) :=
    s <- DequeModel.AsSlice d ;; r <- sort s u ;;
    let '((s', u'), a) := r in
    Ret ((DequeModel.mkDeque (s' ++ skipn (length s') (DequeModel.buffer d)) (DequeModel.dlen d) (DequeModel.head d), u'), a).
  (** vec_deque.go:527-531; 493-505 with the elements' Cmp. *)
  Definition d_stable_sort (compare : user U (T * T) ordering) := on_buffer (stable_sort compare).
  (** vec_deque.go:576-580; 542-554 with the elements' Cmp. *)
  Definition d_unstable_sort (rnd : nat -> nat -> nat) (compare : user U (T * T) ordering) := on_buffer (unstable_sort rnd compare).
End Sorts.
