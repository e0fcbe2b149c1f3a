(** StableSortModel.v -- sort.SliceStable, which Vec.Sort and SortBy (vec.go:442-478) and
    VecDeque.Sort and SortBy (vec_deque.go:493-532) call, as the library does it: the
    insertionSort_func, stable_func, symMerge_func, rotate_func and swapRange_func of
    sort/zsortfunc.go in Go 1.20 (the release go.mod names).  The library's source is not
    in the repository; it is written down here from that release.

    [less i j] of those calls reads the elements i and j of the slice that is being sorted,
    so it is a function of the two elements, which may panic.  Indices are [nat]; the subtractions do not go
    below zero.  A loop that needs fuel is shown not to run out of it. *)
From Verif Require Import Base VecModel.

Section Sort.
  Context {T : Type}.
  Variable less : T -> T -> out bool.

  (** vec.go:443-448, 472-477; vec_deque.go:494-504, 529-531: the function given to the library. *)
  Definition less_at (d : list T) (i j : nat) : out bool := x <- idx d i ;; y <- idx d j ;; less x y.

  (** vec.go:443: insertionSort_func(data, a, b); the inner loop goes from j down to a + 1, so
      [n] is j - a. *)
  Fixpoint shift_left (n : nat) (d : list T) (j : nat) : out (list T) :=
    match n with
    | O => Ret d
    | S k =>
      b <- less_at d j (j - 1) ;;
      if b then d' <- swap_data d j (j - 1) ;; shift_left k d' (j - 1) else Ret d
    end.
  Definition insertionSort (d : list T) (a b : nat) : out (list T) :=
    oloop (fun d i => shift_left (i - a) d i) (seq (a + 1) (b - (a + 1))) d.

  (** vec.go:443: swapRange_func(data, a, b, n) and rotate_func(data, a, m, b). *)
  Definition swapRange (d : list T) (a b n : nat) : out (list T) :=
    oloop (fun d i => swap_data d (a + i) (b + i)) (seq 0 n) d.
  Fixpoint rotate_loop (fuel : nat) (d : list T) (m i j : nat) : out (list T) :=
    match fuel with
    | O => Diverge
    | S k =>
      if i =? j then swapRange d (m - i) m i
      else if j <? i then d' <- swapRange d (m - i) m j ;; rotate_loop k d' m (i - j) j
      else d' <- swapRange d (m - i) (m + j - i) i ;; rotate_loop k d' m i (j - i)
    end.
  Definition rotate (d : list T) (a m b : nat) : out (list T) := rotate_loop (b - a + 1) d m (m - a) (b - m).

  (** The three binary searches of symMerge_func (vec.go:443): up while [f] holds. *)
  Fixpoint search (fuel : nat) (f : nat -> out bool) (i j : nat) : out nat :=
    match fuel with
    | O => Diverge
    | S k =>
      if i <? j then
        let h := (i + j) / 2 in
        b <- f h ;; if (b : bool) then search k f (h + 1) j else search k f i h
      else Ret i
    end.
  (** vec.go:443: symMerge_func(data, a, m, b). *)
  Fixpoint symMerge (fuel : nat) (d : list T) (a m b : nat) : out (list T) :=
    match fuel with
    | O => Diverge
    | S k =>
      if m - a =? 1 then
        i <- search (b - m + 1) (fun h => less_at d h a) m b ;;
        oloop (fun d k => swap_data d k (k + 1)) (seq a (i - 1 - a)) d
      else if b - m =? 1 then
        i <- search (m - a + 1) (fun h => c <- less_at d m h ;; Ret (negb c)) a m ;;
        oloop (fun d k => swap_data d k (k - 1)) (rev (seq (i + 1) (m - i))) d
      else
        let mid := (a + b) / 2 in
        let n := mid + m in
        let '(start, r) := if mid <? m then (n - b, mid) else (a, m) in
        let p := n - 1 in
        start <- search (r - start + 1) (fun c => x <- less_at d (p - c) c ;; Ret (negb x)) start r ;;
        let end_ := n - start in
        d <- (if (start <? m) && (m <? end_) then rotate d start m end_ else Ret d) ;;
        d <- (if (a <? start) && (start <? mid) then symMerge k d a start mid else Ret d) ;;
        if (mid <? end_) && (end_ <? b) then symMerge k d mid end_ b else Ret d
    end.

  (** vec.go:443: stable_func(data, n): sorted blocks of 20, then merges of blocks of twice
      the size until one block is left. *)
  Fixpoint blocks (fuel : nat) (d : list T) (a b n : nat) : out (list T * nat) :=
    match fuel with
    | O => Diverge
    | S k => if b <=? n then d' <- insertionSort d a b ;; blocks k d' b (b + 20) n else Ret (d, a)
    end.
  Fixpoint merge_pass (fuel : nat) (d : list T) (blockSize a b n : nat) : out (list T) :=
    match fuel with
    | O => Diverge
    | S k =>
      if b <=? n then
        d' <- symMerge (n + 1) d a (a + blockSize) b ;; merge_pass k d' blockSize b (b + 2 * blockSize) n
      else if a + blockSize <? n then symMerge (n + 1) d a (a + blockSize) n else Ret d
    end.
  Fixpoint passes (fuel : nat) (d : list T) (blockSize n : nat) : out (list T) :=
    match fuel with
    | O => Diverge
    | S k =>
      if blockSize <? n then
        d' <- merge_pass (n + 1) d blockSize 0 (2 * blockSize) n ;; passes k d' (2 * blockSize) n
      else Ret d
    end.
  Definition SliceStable (d : list T) : out (list T) :=
    let n := length d in
    p <- blocks (n + 1) d 0 20 n ;;
    d' <- insertionSort (fst p) (snd p) n ;;
    passes (n + 1) d' 20 n.
End Sort.
