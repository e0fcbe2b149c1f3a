(** PdqSortModel.v -- sort.Slice, which Vec.SortUnstable and SortUnstableBy (vec.go:489-525)
    and VecDeque.SortUnstable and SortUnstableBy (vec_deque.go:542-581) call, as the library
    does it: the pdqsort_func of sort/zsortfunc.go in Go 1.20 (the release go.mod names) and
    the functions it calls.  The library's source is not in the repository; it is written
    down here from that release.

    breakPatterns_func takes its positions from a generator that is seeded with the length:
    here any function [rnd] of the length and of the number of the swap, brought below the
    length.  Indices are [nat]; the subtractions do not go below zero.  A loop that needs
    fuel is shown not to run out of it. *)
From Verif Require Import Base VecModel StableSortModel.

Section Sort.
  Context {T : Type}.
  Variable less : T -> T -> out bool.
  Variable rnd : nat -> nat -> nat.

  (** vec.go:490: siftDown_func(data, lo, hi, first), [root] being the loop's variable. *)
  Fixpoint siftDown (fuel : nat) (d : list T) (root hi first : nat) : out (list T) :=
    match fuel with
    | O => Diverge
    | S k =>
      let child := 2 * root + 1 in
      if hi <=? child then Ret d
      else
        c <- (if child + 1 <? hi then less_at less d (first + child) (first + child + 1) else Ret false) ;;
        let child := if c : bool then child + 1 else child in
        l <- less_at less d (first + root) (first + child) ;;
        if negb l then Ret d
        else d' <- swap_data d (first + root) (first + child) ;; siftDown k d' child hi first
    end.
  (** vec.go:490: heapSort_func(data, a, b). *)
  Definition heapSort (d : list T) (a b : nat) : out (list T) :=
    let hi := b - a in
    d1 <- oloop (fun d i => siftDown (hi + 1) d i hi a) (rev (seq 0 ((hi - 1) / 2 + 1))) d ;;
    oloop (fun d i => d' <- swap_data d a (a + i) ;; siftDown (hi + 1) d' 0 i a) (rev (seq 0 hi)) d1.

  (** The inner loops of partition_func and partitionEqual_func (vec.go:490): i goes up, j goes
      down while i <= j and the test holds. *)
  Fixpoint scan_up (fuel : nat) (f : nat -> out bool) (i j : nat) : out nat :=
    match fuel with
    | O => Diverge
    | S k => if i <=? j then c <- f i ;; if (c : bool) then scan_up k f (i + 1) j else Ret i else Ret i
    end.
  Fixpoint scan_down (fuel : nat) (f : nat -> out bool) (i j : nat) : out nat :=
    match fuel with
    | O => Diverge
    | S k => if i <=? j then c <- f j ;; if (c : bool) then scan_down k f i (j - 1) else Ret j else Ret j
    end.
  (** vec.go:490: the loop of partition_func(data, a, b, pivot); [moved] tells whether a swap was
      made, which is the negation of the second result. *)
  Fixpoint partition_loop (fuel : nat) (d : list T) (a i j : nat) (moved : bool) : out (list T * nat * bool) :=
    match fuel with
    | O => Diverge
    | S k =>
      i <- scan_up (j + 3 - i) (fun i => less_at less d i a) i j ;;
      j <- scan_down (j + 3 - i) (fun j => c <- less_at less d j a ;; Ret (negb c)) i j ;;
      if j <? i then d' <- swap_data d j a ;; Ret (d', j, negb moved)
      else d' <- swap_data d i j ;; partition_loop k d' a (i + 1) (j - 1) true
    end.
  Definition partition (d : list T) (a b pivot : nat) : out (list T * nat * bool) :=
    d' <- swap_data d a pivot ;; partition_loop (b - a + 1) d' a (a + 1) (b - 1) false.
  (** vec.go:490: partitionEqual_func(data, a, b, pivot). *)
  Fixpoint partitionEqual_loop (fuel : nat) (d : list T) (a i j : nat) : out (list T * nat) :=
    match fuel with
    | O => Diverge
    | S k =>
      i <- scan_up (j + 3 - i) (fun i => c <- less_at less d a i ;; Ret (negb c)) i j ;;
      j <- scan_down (j + 3 - i) (fun j => less_at less d a j) i j ;;
      if j <? i then Ret (d, i)
      else d' <- swap_data d i j ;; partitionEqual_loop k d' a (i + 1) (j - 1)
    end.
  Definition partitionEqual (d : list T) (a b pivot : nat) : out (list T * nat) :=
    d' <- swap_data d a pivot ;; partitionEqual_loop (b - a + 1) d' a (a + 1) (b - 1).

  (** vec.go:490: partialInsertionSort_func(data, a, b).  The smaller element is shifted to the
      left as far as index 1, not a. *)
  Fixpoint shift_right (n : nat) (d : list T) (j : nat) : out (list T) :=
    match n with
    | O => Ret d
    | S k => c <- less_at less d j (j - 1) ;; if c : bool then d' <- swap_data d j (j - 1) ;; shift_right k d' (j + 1) else Ret d
    end.
  Fixpoint partial_steps (n : nat) (d : list T) (a b i : nat) : out (list T * bool) :=
    match n with
    | O => Ret (d, false)
    | S k =>
      i <- scan_up (b + 1 - i) (fun i => c <- less_at less d i (i - 1) ;; Ret (negb c)) i (b - 1) ;;
      if i =? b then Ret (d, true)
      else if b - a <? 50 then Ret (d, false)
      else
        d <- swap_data d i (i - 1) ;;
        d <- (if 2 <=? i - a then shift_left less (i - 1) d (i - 1) else Ret d) ;;
        d <- (if 2 <=? b - i then shift_right (b - (i + 1)) d (i + 1) else Ret d) ;;
        partial_steps k d a b i
    end.
  Definition partialInsertionSort (d : list T) (a b : nat) : out (list T * bool) := partial_steps 5 d a b (a + 1).

  (** vec.go:490: breakPatterns_func(data, a, b). *)
  Definition breakPatterns (d : list T) (a b : nat) : out (list T) :=
    let len := b - a in
    if 8 <=? len then
      let i0 := a + len / 4 * 2 - 1 in
      oloop (fun d i => swap_data d (i0 - 1 + i) (a + rnd len i mod len)) (seq 0 3) d
    else Ret d.

  (** vec.go:490: order2_func, median_func, medianAdjacent_func, choosePivot_func; the number
      of swaps goes along. *)
  Definition order2 (d : list T) (a b swaps : nat) : out (nat * nat * nat) :=
    c <- less_at less d b a ;; Ret (if c : bool then (b, a, swaps + 1) else (a, b, swaps)).
  Definition median (d : list T) (a b c swaps : nat) : out (nat * nat) :=
    x <- order2 d a b swaps ;; let '(a, b, swaps) := x in
    x <- order2 d b c swaps ;; let '(b, c, swaps) := x in
    x <- order2 d a b swaps ;; let '(a, b, swaps) := x in
    Ret (b, swaps).
  Definition medianAdjacent (d : list T) (a swaps : nat) : out (nat * nat) := median d (a - 1) a (a + 1) swaps.
  Inductive sortedHint := unknownHint | increasingHint | decreasingHint.
  Definition choosePivot (d : list T) (a b : nat) : out (nat * sortedHint) :=
    let l := b - a in
    let i := a + l / 4 * 1 in
    let j := a + l / 4 * 2 in
    let k := a + l / 4 * 3 in
    x <- (if 8 <=? l then
            y <- (if 50 <=? l then
                    x <- medianAdjacent d i 0 ;; let '(i, s) := x in
                    x <- medianAdjacent d j s ;; let '(j, s) := x in
                    x <- medianAdjacent d k s ;; let '(k, s) := x in Ret (i, j, k, s)
                  else Ret (i, j, k, 0)) ;;
            let '(i, j, k, s) := y in median d i j k s
          else Ret (j, 0)) ;;
    let '(j, s) := x in
    Ret (j, if s =? 0 then increasingHint else if s =? 12 then decreasingHint else unknownHint).

  (** vec.go:490: reverseRange_func(data, a, b). *)
  Fixpoint reverse_loop (fuel : nat) (d : list T) (i j : nat) : out (list T) :=
    match fuel with
    | O => Diverge
    | S k => if i <? j then d' <- swap_data d i j ;; reverse_loop k d' (i + 1) (j - 1) else Ret d
    end.
  Definition reverseRange (d : list T) (a b : nat) : out (list T) := reverse_loop (b - a + 1) d a (b - 1).

  (** vec.go:490: pdqsort_func(data, a, b, limit); going round its loop is a call. *)
  Fixpoint pdqsort (fuel : nat) (d : list T) (a b limit : nat) (wasBalanced wasPartitioned : bool) : out (list T) :=
    match fuel with
    | O => Diverge
    | S k =>
      let len := b - a in
      if len <=? 12 then insertionSort less d a b
      else if limit =? 0 then heapSort d a b
      else
        x <- (if negb wasBalanced then d' <- breakPatterns d a b ;; Ret (d', limit - 1) else Ret (d, limit)) ;;
        let '(d, limit) := x in
        x <- choosePivot d a b ;; let '(pivot, hint) := x in
        x <- (match hint with
              | decreasingHint => d' <- reverseRange d a b ;; Ret (d', b - 1 - (pivot - a), increasingHint)
              | _ => Ret (d, pivot, hint)
              end) ;;
        let '(d, pivot, hint) := x in
        x <- (if wasBalanced && wasPartitioned && (match hint with increasingHint => true | _ => false end)
              then partialInsertionSort d a b else Ret (d, false)) ;;
        let '(d, sorted) := x in
        if sorted then Ret d
        else
          eq <- (if 0 <? a then c <- less_at less d (a - 1) pivot ;; Ret (negb c) else Ret false) ;;
          if eq : bool then
            x <- partitionEqual d a b pivot ;; let '(d, mid) := x in
            pdqsort k d mid b limit wasBalanced wasPartitioned
          else
            x <- partition d a b pivot ;; let '(d, mid, alreadyPartitioned) := x in
            let leftLen := mid - a in
            let rightLen := b - mid in
            if leftLen <? rightLen then
              d <- pdqsort k d a mid limit true true ;;
              pdqsort k d (mid + 1) b limit (len / 8 <=? leftLen) alreadyPartitioned
            else
              d <- pdqsort k d (mid + 1) b limit true true ;;
              pdqsort k d a mid limit (len / 8 <=? rightLen) alreadyPartitioned
    end.
  (** vec.go:490: Slice(x, less): the limit is the number of bits of the length. *)
  Definition Slice (d : list T) : out (list T) :=
    let n := length d in
    pdqsort (n + 1) d 0 n (if n =? 0 then 0 else Nat.log2 n + 1) true true.
End Sort.
