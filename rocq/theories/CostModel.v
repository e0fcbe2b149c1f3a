(** CostModel.v -- binary search and IntoSortedVec with a user's function that has a state and
    may panic (PanicModel has the heap's Push and Pop). *)
From Verif Require Import Base VecModel PanicSpec PanicModel.
From Verif Require DequeModel.

Section Search.
  Context {T U : Type}.
  (** vec.go:381-406 (BinarySearchBy) and 336-363 (BinarySearch); vec_deque.go:454-479, 409-436: the
      slice or buffer is read only.  Fuel as in VecModel. *)
  Fixpoint search_loop (fuel : nat) (f : user U T ordering) (low high : Z) : X (list T * U) (option nat) :=
    match fuel with
    | O => xlift Diverge
    | S k =>
      if (low <=? high)%Z then
        let mid := ((low + high) / 2)%Z in
        d <! xget ;; x <! xlift (idx d (Z.to_nat mid)) ;;
        o <! call f x ;;
        match o with
        | Less => search_loop k f (mid + 1)%Z high
        | Greater => search_loop k f low (mid - 1)%Z
        | Equal => xret (Some (Z.to_nat mid))
        end
      else xret None
    end.
  (** vec.go:381-383. *)
  Definition V_BinarySearchBy (f : user U T ordering) : X (list T * U) (option nat) :=
    d <! xget ;; search_loop (length d + 1) f 0 (Z.of_nat (length d) - 1).
  (** vec_deque.go:454-456: on the buffer, up to the number of elements. *)
  Definition D_BinarySearchBy (len : Z) (f : user U T ordering) : X (list T * U) (option nat) :=
    search_loop (Z.to_nat len + 1) f 0 (len - 1).
End Search.

Section Heap.
  Context {T U : Type}.
  Variable zero : T.
  Variable cmp : user U (T * T) ordering.
  (** binary_heap.go:235-247: index as in HeapModel; one round for each element. *)
  Fixpoint sorted_loop (fuel : nat) (sorted : list T) (index : Z) : X (list T * U) (list T) :=
    match fuel with
    | O => xlift Diverge
    | S k =>
      d <! xget ;;
      if negb (length d =? 0) then
        o <! H_Pop cmp ;; x <! xlift (of_option o) ;;
        sorted' <! xlift (if (index <? 0)%Z then Panic else upd sorted (Z.to_nat index) x) ;;
        sorted_loop k sorted' (index - 1)%Z
      else xret sorted
    end.
  Definition H_IntoSortedVec : X (list T * U) (list T) :=
    d <! xget ;; sorted_loop (length d + 1) (repeat zero (length d)) (Z.of_nat (length d) - 1).
End Heap.
