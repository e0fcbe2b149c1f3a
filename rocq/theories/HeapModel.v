(** HeapModel.v -- binary_heap.go.

    A heap is its vector's elements together with the vector's capacity (only
    Append looks at the capacity).  Lengths and indices are [nat]: a heap too long
    for memory is not modelled, so index arithmetic does not wrap.  Distinct heaps
    are assumed not to share a backing array (IntoVec and AsSlice hand out the
    heap's own array; see C38 for the rules of sharing). *)
From Verif Require Import Base VecModel.

Section Heap.
  Context {T : Type}.
  Variable zero : T.
  Variable extra : nat -> nat -> nat.
  (** The element type's Cmp: BinaryHeap's type parameter is Ord, so it exists. *)
  Variable cmp : T -> T -> ordering.

  Record BinaryHeap := mkHeap { vec : list T; capacity : nat }.

  (** binary_heap.go:12-30. *)
  Definition BinaryHeapNew : BinaryHeap := mkHeap [] 0.
  Definition BinaryHeapWithCapacity (n : nat) : BinaryHeap := mkHeap [] n.
  Definition BinaryHeapWithLen (n : nat) : BinaryHeap := mkHeap (repeat zero n) n.
  (** binary_heap.go:39-63. *)
  Definition HCapacity (h : BinaryHeap) : nat := capacity h.
  Definition HLen (h : BinaryHeap) : nat := length (vec h).
  Definition HIsEmpty (h : BinaryHeap) : bool := HLen h =? 0.
  (** append to the vector (vec.go:84-86 and 73): the capacity grows if it must. *)
  Definition extend (h : BinaryHeap) (xs : list T) : BinaryHeap :=
    let n := HLen h + length xs in
    mkHeap (vec h ++ xs) (if n <=? capacity h then capacity h else n + extra (capacity h) n).
  (** binary_heap.go:72-74, vec.go:71-75. *)
  Definition HReserve (h : BinaryHeap) (additional : nat) : BinaryHeap :=
    if capacity h <? HLen h + additional then extend h (repeat zero additional) else h.

  (** binary_heap.go:90-112 and the hole of 253-288: [elt] is the value read when
      the hole was made; MoveTo swaps.  Fuel: pos + 1 iterations suffice. *)
  Fixpoint sift_up_loop (fuel : nat) (d : list T) (start : nat) (elt : T) (pos : nat) : out (list T * nat) :=
    match fuel with
    | O => Diverge
    | S k =>
      if start <? pos then
        let parent := (pos - 1) / 2 in
        x <- idx d parent ;;
        match cmp elt x with
        | Less | Equal => Ret (d, pos)
        | Greater => d' <- swap_data d pos parent ;; sift_up_loop k d' start elt parent
        end
      else Ret (d, pos)
    end.
  Definition SiftUp (d : list T) (start pos : nat) : out (list T * nat) :=
    elt <- idx d pos ;; sift_up_loop (pos + 1) d start elt pos.
  (** binary_heap.go:81-88. *)
  Definition HPush (h : BinaryHeap) (item : T) : out BinaryHeap :=
    let oldLen := HLen h in
    let h' := extend h [item] in
    p <- SiftUp (vec h') 0 oldLen ;; Ret (mkHeap (fst p) (capacity h')).

  (** binary_heap.go:135-171; end.SaturatingSub(2) is truncated subtraction.  Fuel:
      the child index grows, so length + 1 iterations suffice. *)
  Fixpoint sift_down_loop (fuel : nat) (d : list T) (end_ : nat) (pos child : nat) : out (list T * nat * nat) :=
    match fuel with
    | O => Diverge
    | S k =>
      if child <=? end_ - 2 then
        a <- idx d child ;; b <- idx d (child + 1) ;;
        let child := match cmp a b with Less | Equal => child + 1 | Greater => child end in
        d' <- swap_data d pos child ;;
        sift_down_loop k d' end_ child (2 * child + 1)
      else Ret (d, pos, child)
    end.
  Definition SiftDownToBottom (d : list T) (pos : nat) : out (list T) :=
    let end_ := length d in
    let start := pos in
    _ <- idx d pos ;;
    r <- sift_down_loop (end_ + 1) d end_ pos (2 * pos + 1) ;;
    let '(d, pos, child) := r in
    r <- (if child =? end_ - 1 then d' <- swap_data d pos child ;; Ret (d', child) else Ret (d, pos)) ;;
    let '(d, pos) := r in
    p <- SiftUp d start pos ;; Ret (fst p).
  (** binary_heap.go:123-133. *)
  Definition HPop (h : BinaryHeap) : out (BinaryHeap * option T) :=
    match vec h with
    | [] => Ret (h, None)
    | _ =>
      item <- idx (vec h) (HLen h - 1) ;;
      let rest := firstn (HLen h - 1) (vec h) in
      if negb (length rest =? 0) then
        top <- idx rest 0 ;;
        d <- upd rest 0 item ;;
        d' <- SiftDownToBottom d 0 ;;
        Ret (mkHeap d' (capacity h), Some top)
      else Ret (mkHeap rest (capacity h), Some item)
    end.
  (** binary_heap.go:185-190: (self, other); [other] is a different heap. *)
  Definition HAppend (h other : BinaryHeap) : out (BinaryHeap * BinaryHeap) :=
    h' <- oloop HPush (vec other) (HReserve h (HLen h + HLen other)) ;; Ret (h', other).
  (** binary_heap.go:200-202. *)
  Definition HClear (h : BinaryHeap) : BinaryHeap := mkHeap [] 0.
  (** binary_heap.go:205-207, 220-222: AsSlice and IntoVec hand out the same array. *)
  Definition HIntoVec (h : BinaryHeap) : list T := vec h.
  (** binary_heap.go:235-247: index is unsigned, -1 stands for 2^64-1 (out of range).
      Fuel: one iteration per element. *)
  Fixpoint sorted_loop (fuel : nat) (h : BinaryHeap) (sorted : list T) (index : Z) : out (BinaryHeap * list T) :=
    match fuel with
    | O => Diverge
    | S k =>
      if negb (HIsEmpty h) then
        p <- HPop h ;;
        x <- of_option (snd p) ;;
        sorted' <- (if (index <? 0)%Z then Panic else upd sorted (Z.to_nat index) x) ;;
        sorted_loop k (fst p) sorted' (index - 1)
      else Ret (h, sorted)
    end.
  Definition HIntoSortedVec (h : BinaryHeap) : out (BinaryHeap * list T) :=
    sorted_loop (HLen h + 1) h (repeat zero (HLen h)) (Z.of_nat (HLen h) - 1)%Z.
End Heap.
Arguments BinaryHeap T : clear implicits.
