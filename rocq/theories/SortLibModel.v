(** SortLibModel.v -- the sorting methods of Vec and VecDeque with the library's own sorting
    functions (StableSortModel, PdqSortModel) in place of their contract.  The comparison is
    called on the slice while it is being sorted. *)
From Verif Require Import Base VecModel StableSortModel PdqSortModel.
From Verif Require DequeModel.

Section Sorts.
  Context {T : Type}.
  Variable rnd : nat -> nat -> nat.

  (** vec.go:444-447, 491-494; vec_deque.go:495-503, 544-552: elements without Cmp make the call panic. *)
  Definition by_cmp (cmp : option (T -> T -> ordering)) (a b : T) : out bool := c <- of_option cmp ;; Ret (is_less (c a b)).
  (** vec.go:473-476, 520-523; vec_deque.go:529, 578. *)
  Definition by_func (compare : T -> T -> ordering) (a b : T) : out bool := Ret (is_less (compare a b)).

  (** vec.go:442-449. *)
  Definition Sort (cmp : option (T -> T -> ordering)) (m : mem T) (v : slice) : out (mem T) := in_place m v (SliceStable (by_cmp cmp)).
  (** vec.go:471-478. *)
  Definition SortBy (compare : T -> T -> ordering) (m : mem T) (v : slice) : out (mem T) := in_place m v (SliceStable (by_func compare)).
  (** vec.go:489-496. *)
  Definition SortUnstable (cmp : option (T -> T -> ordering)) (m : mem T) (v : slice) : out (mem T) := in_place m v (Slice (by_cmp cmp) rnd).
  (** vec.go:518-525. *)
  Definition SortUnstableBy (compare : T -> T -> ordering) (m : mem T) (v : slice) : out (mem T) := in_place m v (Slice (by_func compare) rnd).

  (** vec_deque.go:494, 528, 543, 577: the slice is the first len cells of the buffer. *)
  Definition on_cells (f : list T -> out (list T)) (d : DequeModel.VecDeque T) : out (DequeModel.VecDeque T) :=
    s <- DequeModel.AsSlice d ;; s' <- f s ;;
    Ret (DequeModel.mkDeque (s' ++ skipn (length s') (DequeModel.buffer d)) (DequeModel.dlen d) (DequeModel.head d)).
  (** vec_deque.go:493-505, 527-531, 542-554, 576-580. *)
  Definition DSort (cmp : option (T -> T -> ordering)) := on_cells (SliceStable (by_cmp cmp)).
  Definition DSortBy (f : T -> T -> ordering) := on_cells (SliceStable (by_func f)).
  Definition DSortUnstable (cmp : option (T -> T -> ordering)) := on_cells (Slice (by_cmp cmp) rnd).
  Definition DSortUnstableBy (f : T -> T -> ordering) := on_cells (Slice (by_func f) rnd).
End Sorts.
