(** SortProgModel.v -- sort.SliceStable once more (StableSortModel.v), as the program of
    calls of less and swap it is: it touches the slice through these only.  So it can be run
    with a comparison function that has a state and may panic.  vec.go:442-478. *)
From Verif Require Import Base VecModel PanicSpec PanicModel.

(** A program of calls, which gives an [A] at the end; [Endless]: out of fuel. *)
Inductive prog (A : Type) := Give (a : A) | Endless | Asks (i j : nat) (k : bool -> prog A) | Swaps (i j : nat) (k : prog A).
Arguments Give {A}. Arguments Endless {A}. Arguments Asks {A}. Arguments Swaps {A}.
Fixpoint after {A B} (p : prog A) (f : A -> prog B) : prog B :=
  match p with
  | Give a => f a
  | Endless => Endless
  | Asks i j k => Asks i j (fun b => after (k b) f)
  | Swaps i j k => Swaps i j (after k f)
  end.
Notation "x <-- p ;; f" := (after p (fun x => f)) (at level 60, p at next level, right associativity).
Definition ask (i j : nat) : prog bool := Asks i j Give.
Definition swap (i j : nat) : prog unit := Swaps i j (Give tt).
Fixpoint each (f : nat -> prog unit) (l : list nat) : prog unit :=
  match l with [] => Give tt | i :: r => _ <-- f i ;; each f r end.

(** vec.go:443: insertionSort_func, swapRange_func, rotate_func, symMerge_func and
    stable_func, as in StableSortModel.v. *)
Fixpoint p_shift_left (n j : nat) : prog unit :=
  match n with
  | O => Give tt
  | S k => b <-- ask j (j - 1) ;; if (b : bool) then _ <-- swap j (j - 1) ;; p_shift_left k (j - 1) else Give tt
  end.
Definition p_insertionSort (a b : nat) : prog unit := each (fun i => p_shift_left (i - a) i) (seq (a + 1) (b - (a + 1))).
Definition p_swapRange (a b n : nat) : prog unit := each (fun i => swap (a + i) (b + i)) (seq 0 n).
Fixpoint p_rotate_loop (fuel m i j : nat) : prog unit :=
  match fuel with
  | O => Endless
  | S k =>
    if i =? j then p_swapRange (m - i) m i
    else if j <? i then _ <-- p_swapRange (m - i) m j ;; p_rotate_loop k m (i - j) j
    else _ <-- p_swapRange (m - i) (m + j - i) i ;; p_rotate_loop k m i (j - i)
  end.
Definition p_rotate (a m b : nat) : prog unit := p_rotate_loop (b - a + 1) m (m - a) (b - m).
Fixpoint p_search (fuel : nat) (f : nat -> prog bool) (i j : nat) : prog nat :=
  match fuel with
  | O => Endless
  | S k =>
    if i <? j then
      let h := (i + j) / 2 in
      b <-- f h ;; if (b : bool) then p_search k f (h + 1) j else p_search k f i h
    else Give i
  end.
Fixpoint p_symMerge (fuel a m b : nat) : prog unit :=
  match fuel with
  | O => Endless
  | S k =>
    if m - a =? 1 then
      i <-- p_search (b - m + 1) (fun h => ask h a) m b ;;
      each (fun k => swap k (k + 1)) (seq a (i - 1 - a))
    else if b - m =? 1 then
      i <-- p_search (m - a + 1) (fun h => c <-- ask m h ;; Give (negb c)) a m ;;
      each (fun k => swap k (k - 1)) (rev (seq (i + 1) (m - i)))
    else
      let mid := (a + b) / 2 in
      let n := mid + m in
      let '(start, r) := if mid <? m then (n - b, mid) else (a, m) in
      let p := n - 1 in
      start <-- p_search (r - start + 1) (fun c => x <-- ask (p - c) c ;; Give (negb x)) start r ;;
      let end_ := n - start in
      _ <-- (if (start <? m) && (m <? end_) then p_rotate start m end_ else Give tt) ;;
      _ <-- (if (a <? start) && (start <? mid) then p_symMerge k a start mid else Give tt) ;;
      if (mid <? end_) && (end_ <? b) then p_symMerge k mid end_ b else Give tt
  end.
Fixpoint p_blocks (fuel a b n : nat) : prog nat :=
  match fuel with
  | O => Endless
  | S k => if b <=? n then _ <-- p_insertionSort a b ;; p_blocks k b (b + 20) n else Give a
  end.
Fixpoint p_merge_pass (fuel blockSize a b n : nat) : prog unit :=
  match fuel with
  | O => Endless
  | S k =>
    if b <=? n then _ <-- p_symMerge (n + 1) a (a + blockSize) b ;; p_merge_pass k blockSize b (b + 2 * blockSize) n
    else if a + blockSize <? n then p_symMerge (n + 1) a (a + blockSize) n else Give tt
  end.
Fixpoint p_passes (fuel blockSize n : nat) : prog unit :=
  match fuel with
  | O => Endless
  | S k => if blockSize <? n then _ <-- p_merge_pass (n + 1) blockSize 0 (2 * blockSize) n ;; p_passes k (2 * blockSize) n else Give tt
  end.
Definition p_SliceStable (n : nat) : prog unit :=
  a <-- p_blocks (n + 1) 0 20 n ;; _ <-- p_insertionSort a n ;; p_passes (n + 1) 20 n.

(** Running a program on a slice.  The answer [None]: the comparison panicked; an index out
    of range and a loop without end are the outcomes [Panic] and [Diverge]. *)
Section Run.
  Context {T U : Type}.
  Variable compare : user U (T * T) ordering.
  Fixpoint play {A} (p : prog A) (d : list T) (u : U) : out ((list T * U) * option A) :=
    match p with
    | Give a => Ret ((d, u), Some a)
    | Endless => Diverge
    | Asks i j k =>
        x <- idx d i ;; y <- idx d j ;;
        let (u', o) := compare (x, y) u in
        match o with
        | None => Ret ((d, u'), None)
        | Some c => play (k (is_less c)) d u'
        end
    | Swaps i j k => d' <- swap_data d i j ;; play k d' u
    end.
  (** vec.go:471-478: the vector's elements while and after they are sorted; vec.go:442-449
      with the elements' Cmp. *)
  Definition stable_sort (d : list T) (u : U) : out ((list T * U) * option unit) := play (p_SliceStable (length d)) d u.
End Run.
