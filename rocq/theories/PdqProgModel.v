(** PdqProgModel.v -- sort.Slice once more (PdqSortModel.v), as the program of calls of less
    and swap it is, so that it can be run with a comparison that has a state and may panic
    (SortProgModel.v).  vec.go:489-525.  [rnd] as in PdqSortModel.v. *)
From Verif Require Import Base VecModel PanicSpec PanicModel SortProgModel PdqSortModel.

Section Sort.
  Variable rnd : nat -> nat -> nat.

  (** vec.go:490: siftDown_func and heapSort_func. *)
  Fixpoint p_siftDown (fuel root hi first : nat) : prog unit :=
    match fuel with
    | O => Endless
    | S k =>
      let child := 2 * root + 1 in
      if hi <=? child then Give tt
      else
        c <-- (if child + 1 <? hi then ask (first + child) (first + child + 1) else Give false) ;;
        let child := if c : bool then child + 1 else child in
        l <-- ask (first + root) (first + child) ;;
        if negb l then Give tt
        else _ <-- swap (first + root) (first + child) ;; p_siftDown k child hi first
    end.
  Definition p_heapSort (a b : nat) : prog unit :=
    let hi := b - a in
    _ <-- each (fun i => p_siftDown (hi + 1) i hi a) (rev (seq 0 ((hi - 1) / 2 + 1))) ;;
    each (fun i => _ <-- swap a (a + i) ;; p_siftDown (hi + 1) 0 i a) (rev (seq 0 hi)).

  (** vec.go:490: the inner loops of the two partitions, partition_func and partitionEqual_func. *)
  Fixpoint p_scan_up (fuel : nat) (f : nat -> prog bool) (i j : nat) : prog nat :=
    match fuel with
    | O => Endless
    | S k => if i <=? j then c <-- f i ;; if (c : bool) then p_scan_up k f (i + 1) j else Give i else Give i
    end.
  Fixpoint p_scan_down (fuel : nat) (f : nat -> prog bool) (i j : nat) : prog nat :=
    match fuel with
    | O => Endless
    | S k => if i <=? j then c <-- f j ;; if (c : bool) then p_scan_down k f i (j - 1) else Give j else Give j
    end.
  Definition ask_not (i j : nat) : prog bool := c <-- ask i j ;; Give (negb c).
  Fixpoint p_partition_loop (fuel a i j : nat) (moved : bool) : prog (nat * bool) :=
    match fuel with
    | O => Endless
    | S k =>
      i <-- p_scan_up (j + 3 - i) (fun i => ask i a) i j ;;
      j <-- p_scan_down (j + 3 - i) (fun j => ask_not j a) i j ;;
      if j <? i then _ <-- swap j a ;; Give (j, negb moved)
      else _ <-- swap i j ;; p_partition_loop k a (i + 1) (j - 1) true
    end.
  Definition p_partition (a b pivot : nat) : prog (nat * bool) :=
    _ <-- swap a pivot ;; p_partition_loop (b - a + 1) a (a + 1) (b - 1) false.
  Fixpoint p_partitionEqual_loop (fuel a i j : nat) : prog nat :=
    match fuel with
    | O => Endless
    | S k =>
      i <-- p_scan_up (j + 3 - i) (fun i => ask_not a i) i j ;;
      j <-- p_scan_down (j + 3 - i) (fun j => ask a j) i j ;;
      if j <? i then Give i
      else _ <-- swap i j ;; p_partitionEqual_loop k a (i + 1) (j - 1)
    end.
  Definition p_partitionEqual (a b pivot : nat) : prog nat :=
    _ <-- swap a pivot ;; p_partitionEqual_loop (b - a + 1) a (a + 1) (b - 1).

  (** vec.go:490: partialInsertionSort_func. *)
  Fixpoint p_shift_right (n j : nat) : prog unit :=
    match n with
    | O => Give tt
    | S k => c <-- ask j (j - 1) ;; if (c : bool) then _ <-- swap j (j - 1) ;; p_shift_right k (j + 1) else Give tt
    end.
  Fixpoint p_partial_steps (n a b i : nat) : prog bool :=
    match n with
    | O => Give false
    | S k =>
      i <-- p_scan_up (b + 1 - i) (fun i => ask_not i (i - 1)) i (b - 1) ;;
      if i =? b then Give true
      else if b - a <? 50 then Give false
      else
        _ <-- swap i (i - 1) ;;
        _ <-- (if 2 <=? i - a then p_shift_left (i - 1) (i - 1) else Give tt) ;;
        _ <-- (if 2 <=? b - i then p_shift_right (b - (i + 1)) (i + 1) else Give tt) ;;
        p_partial_steps k a b i
    end.
  Definition p_partialInsertionSort (a b : nat) : prog bool := p_partial_steps 5 a b (a + 1).

  (** vec.go:490: breakPatterns_func. *)
  Definition p_breakPatterns (a b : nat) : prog unit :=
    let len := b - a in
    if 8 <=? len then
      let i0 := a + len / 4 * 2 - 1 in
      each (fun i => swap (i0 - 1 + i) (a + rnd len i mod len)) (seq 0 3)
    else Give tt.

  (** vec.go:490: order2_func, median_func, medianAdjacent_func, choosePivot_func. *)
  Definition p_order2 (a b swaps : nat) : prog (nat * nat * nat) :=
    c <-- ask b a ;; Give (if c : bool then (b, a, swaps + 1) else (a, b, swaps)).
  Definition p_median (a b c swaps : nat) : prog (nat * nat) :=
    x <-- p_order2 a b swaps ;; let '(a, b, swaps) := x in
    x <-- p_order2 b c swaps ;; let '(b, c, swaps) := x in
    x <-- p_order2 a b swaps ;; let '(a, b, swaps) := x in
    Give (b, swaps).
  Definition p_medianAdjacent (a swaps : nat) : prog (nat * nat) := p_median (a - 1) a (a + 1) swaps.
  Definition p_choosePivot (a b : nat) : prog (nat * sortedHint) :=
    let l := b - a in
    let i := a + l / 4 * 1 in
    let j := a + l / 4 * 2 in
    let k := a + l / 4 * 3 in
    x <-- (if 8 <=? l then
             y <-- (if 50 <=? l then
                      x <-- p_medianAdjacent i 0 ;; let '(i, s) := x in
                      x <-- p_medianAdjacent j s ;; let '(j, s) := x in
                      x <-- p_medianAdjacent k s ;; let '(k, s) := x in Give (i, j, k, s)
                    else Give (i, j, k, 0)) ;;
             let '(i, j, k, s) := y in p_median i j k s
           else Give (j, 0)) ;;
    let '(j, s) := x in
    Give (j, if s =? 0 then increasingHint else if s =? 12 then decreasingHint else unknownHint).

  (** vec.go:490: reverseRange_func. *)
  Fixpoint p_reverse_loop (fuel i j : nat) : prog unit :=
    match fuel with
    | O => Endless
    | S k => if i <? j then _ <-- swap i j ;; p_reverse_loop k (i + 1) (j - 1) else Give tt
    end.
  Definition p_reverseRange (a b : nat) : prog unit := p_reverse_loop (b - a + 1) a (b - 1).

  (** vec.go:490: pdqsort_func and Slice. *)
  Fixpoint p_pdqsort (fuel a b limit : nat) (wasBalanced wasPartitioned : bool) : prog unit :=
    match fuel with
    | O => Endless
    | S k =>
      let len := b - a in
      if len <=? 12 then p_insertionSort a b
      else if limit =? 0 then p_heapSort a b
      else
        limit <-- (if negb wasBalanced then _ <-- p_breakPatterns a b ;; Give (limit - 1) else Give limit) ;;
        x <-- p_choosePivot a b ;; let '(pivot, hint) := x in
        x <-- (match hint with
               | decreasingHint => _ <-- p_reverseRange a b ;; Give (b - 1 - (pivot - a), increasingHint)
               | _ => Give (pivot, hint)
               end) ;;
        let '(pivot, hint) := x in
        sorted <-- (if wasBalanced && wasPartitioned && (match hint with increasingHint => true | _ => false end)
                    then p_partialInsertionSort a b else Give false) ;;
        if (sorted : bool) then Give tt
        else
          eq <-- (if 0 <? a then ask_not (a - 1) pivot else Give false) ;;
          if (eq : bool) then
            mid <-- p_partitionEqual a b pivot ;;
            p_pdqsort k mid b limit wasBalanced wasPartitioned
          else
            x <-- p_partition a b pivot ;; let '(mid, alreadyPartitioned) := x in
            let leftLen := mid - a in
            let rightLen := b - mid in
            if leftLen <? rightLen then
              _ <-- p_pdqsort k a mid limit true true ;;
              p_pdqsort k (mid + 1) b limit (len / 8 <=? leftLen) alreadyPartitioned
            else
              _ <-- p_pdqsort k (mid + 1) b limit true true ;;
              p_pdqsort k a mid limit (len / 8 <=? rightLen) alreadyPartitioned
    end.
  Definition p_Slice (n : nat) : prog unit := p_pdqsort (n + 1) 0 n (if n =? 0 then 0 else Nat.log2 n + 1) true true.

  (** vec.go:518-525: the vector's elements while and after they are sorted; vec.go:489-496
      with the elements' Cmp. *)
  Definition unstable_sort {T U} (compare : user U (T * T) ordering) (d : list T) (u : U) : out ((list T * U) * option unit) :=
    play compare (p_Slice (length d)) d u.
End Sort.
