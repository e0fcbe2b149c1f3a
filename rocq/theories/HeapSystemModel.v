(** HeapSystemModel.v -- programs over several binary heaps (binary_heap.go), among them
    a heap appended to itself. *)
From Verif Require Import Base VecModel HeapModel HeapSystemSpec.

Section Heaps.
  Context {T : Type}.
  Variable zero : T.
  Variable extra : nat -> nat -> nat.
  Variable cmp : T -> T -> ordering.

  (** binary_heap.go:185-190 with other = self.  [range other.vec.data] evaluates the slice
      once, after Reserve, and reads its elements one by one.  While Push does not
      reallocate, that slice is the beginning of the heap's own array, so the elements that
      Push has moved are read at their new places.  Once Push reallocates, the slice is the
      old array, as it was then ([frozen]).  [n] more elements, the next at [i]. *)
  Fixpoint append_self_loop (n i : nat) (frozen : option (list T)) (h : BinaryHeap T) : out (BinaryHeap T) :=
    match n with
    | O => Ret h
    | S k =>
      item <- idx (match frozen with Some a => a | None => vec h end) i ;;
      let frozen' := match frozen with
                     | Some a => Some a
                     | None => if capacity h <? HLen h + 1 then Some (vec h) else None
                     end in
      h' <- HPush extra cmp h item ;;
      append_self_loop k (i + 1) frozen' h'
    end.
  Definition HAppendSelf (h : BinaryHeap T) : out (BinaryHeap T) :=
    let h1 := HReserve zero extra h (HLen h + HLen h) in append_self_loop (HLen h1) 0 None h1.

  (** The program's variables are distinct heaps that do not share arrays.  NoHeap: there is
      no such variable (the program does not compile). *)
  Definition with_heap (hs : list (BinaryHeap T)) (i : nat)
      (k : BinaryHeap T -> out (list (BinaryHeap T) * sys_answer T)) : out (list (BinaryHeap T) * sys_answer T) :=
    match nth_error hs i with Some h => k h | None => Ret (hs, NoHeap) end.
  Definition sexec (hs : list (BinaryHeap T)) (o : sys_op T) : out (list (BinaryHeap T) * sys_answer T) :=
    match o with
    | New => Ret (hs ++ [BinaryHeapNew], Nothing)
    | WithCapacity n => Ret (hs ++ [BinaryHeapWithCapacity n], Nothing)
    | WithLen n => Ret (hs ++ [BinaryHeapWithLen zero n], Nothing)
    | Push i x => with_heap hs i (fun h => h' <- HPush extra cmp h x ;; Ret (list_set hs i h', Nothing))
    | Pop i => with_heap hs i (fun h => p <- HPop cmp h ;; Ret (list_set hs i (fst p), Popped (snd p)))
    | Clear i => with_heap hs i (fun h => Ret (list_set hs i (HClear h), Nothing))
    | Reserve i n => with_heap hs i (fun h => Ret (list_set hs i (HReserve zero extra h n), Nothing))
    | Append i j =>
      with_heap hs i (fun h => with_heap hs j (fun other =>
        if i =? j then h' <- HAppendSelf h ;; Ret (list_set hs i h', Nothing)
        else p <- HAppend zero extra cmp h other ;; Ret (list_set (list_set hs i (fst p)) j (snd p), Nothing)))
    | Len i => with_heap hs i (fun h => Ret (hs, Count (HLen h)))
    | IsEmpty i => with_heap hs i (fun h => Ret (hs, Truth (HIsEmpty h)))
    | Capacity i => with_heap hs i (fun h => Ret (hs, Count (HCapacity h)))
    | Sorted i => with_heap hs i (fun h => p <- HIntoSortedVec zero cmp h ;; Ret (list_set hs i (fst p), Listed (snd p)))
    end.
  Fixpoint srun (hs : list (BinaryHeap T)) (ops : list (sys_op T)) : out (list (BinaryHeap T) * list (sys_answer T)) :=
    match ops with
    | [] => Ret (hs, [])
    | o :: r => p <- sexec hs o ;; q <- srun (fst p) r ;; Ret (fst q, snd p :: snd q)
    end.
End Heaps.
