(** AnyCmpModel.v -- histories of a BinaryHeap with its slice in the user's hands (C114). *)
From Verif Require Import Base VecModel HeapModel AnyCmpSpec.

Section Run.
  Context {T : Type}.
  Variable zero : T.
  Variable extra : nat -> nat -> nat.
  Variable cmp : T -> T -> ordering.
  (** binary_heap.go:205-207: AsSlice hands out the heap's own array, so an assignment to
      an element of it is seen by the heap.  The user's index expression panics if the
      index is out of range; here that is an answer. *)
  Definition write (h : BinaryHeap T) (i : nat) (x : T) : BinaryHeap T * bag_answer T :=
    match upd (HIntoVec h) i x with
    | Ret d => (mkHeap d (capacity h), Nothing)
    | _ => (h, OutOfRange)
    end.
  (** binary_heap.go:59-61, 81-88, 123-133, 200-202, 235-247. *)
  Definition aexec (h : BinaryHeap T) (o : bag_op T) : out (BinaryHeap T * bag_answer T) :=
    match o with
    | Push x => h' <- HPush extra cmp h x ;; Ret (h', Nothing)
    | Pop => p <- HPop cmp h ;; Ret (fst p, Popped (snd p))
    | Length => Ret (h, Count (HLen h))
    | Clear => Ret (HClear h, Nothing)
    | Sorted => p <- HIntoSortedVec zero cmp h ;; Ret (fst p, Listed (snd p))
    | Write i x => Ret (write h i x)
    end.
  Fixpoint arun (h : BinaryHeap T) (ops : list (bag_op T)) : out (BinaryHeap T * list (bag_answer T)) :=
    match ops with
    | [] => Ret (h, [])
    | o :: r => p <- aexec h o ;; q <- arun (fst p) r ;; Ret (fst q, snd p :: snd q)
    end.
End Run.
