(** VecModel.v -- vec.go.

    Memory: [mem] is the list of backing arrays allocated so far (the address is
    the index, the capacity the array's length); a Go slice is (array, length).
    No gost method keeps a slice whose offset is not 0, so offsets are left out.
    Lengths and indices are [nat] (running out of memory is not modelled), except
    in Reserve, where the 64-bit sum matters.  Element comparison closures and the
    predicate of Retain are pure; the closure of FillWith is a state transformer. *)
From Coq Require Import Permutation.
From Verif Require Import Base Effect.
Local Open Scope bool_scope.

(** A [for] loop over the given indices that may panic. *)
Fixpoint oloop {S A : Type} (f : S -> A -> out S) (l : list A) (s : S) : out S :=
  match l with
  | [] => Ret s
  | x :: r => s' <- f s x ;; oloop f r s'
  end.

Section Slices.
  Context {T : Type}.
  Variable zero : T.
  (** Extra capacity given by the runtime's growslice: arbitrary. *)
  Variable extra : nat -> nat -> nat.

  Definition mem := list (list T).
  Record slice := mkSlice { arr : nat; slen : nat }.

  Definition array (m : mem) (s : slice) : list T := nth (arr s) m [].
  Definition scap (m : mem) (s : slice) : nat := length (array m s).
  (** The elements the slice shows. *)
  Definition contents (m : mem) (s : slice) : list T := firstn (slen s) (array m s).

  (** make([]T, n) and make([]T, 0, n). *)
  Definition make_len (m : mem) (n : nat) : mem * slice := (m ++ [repeat zero n], mkSlice (length m) n).
  Definition make_cap (m : mem) (n : nat) : mem * slice := (m ++ [repeat zero n], mkSlice (length m) 0).
  (** append(s, xs...): in place if the capacity allows, else a new array. *)
  Definition append (m : mem) (s : slice) (xs : list T) : mem * slice :=
    let a := array m s in
    let n := slen s + length xs in
    if n <=? length a
    then (list_set m (arr s) (firstn (slen s) a ++ xs ++ skipn n a), mkSlice (arr s) n)
    else (m ++ [firstn (slen s) a ++ xs ++ repeat zero (extra (length a) n)], mkSlice (length m) n).
  (** A function that only reads and writes s[0..len): its effect on the array. *)
  Definition store (m : mem) (s : slice) (d : list T) : mem :=
    list_set m (arr s) (d ++ skipn (slen s) (array m s)).
  Definition in_place (m : mem) (s : slice) (f : list T -> out (list T)) : out mem :=
    d <- f (contents m s) ;; Ret (store m s d).
  (** s[:n] for n <= len. *)
  Definition reslice (s : slice) (n : nat) : slice := mkSlice (arr s) n.

  (** *** Vec: constructors *)
  (** vec.go:17-29. *)
  Definition VecNew (m : mem) : mem * slice := make_len m 0.
  Definition VecWithCapacity (m : mem) (n : nat) : mem * slice := make_cap m n.
  Definition VecWithLen (m : mem) (n : nat) : mem * slice := make_len m n.
  (** vec.go:38-62. *)
  Definition Capacity (m : mem) (v : slice) : nat := scap m v.
  Definition Len (v : slice) : nat := slen v.
  Definition IsEmpty (v : slice) : bool := Len v =? 0.
  (** vec.go:71-75: the sum is computed in 64 bits; make panics from 2^63 on.  The
      capacity shortfall is made up by appending zero elements. *)
  Definition Reserve (m : mem) (v : slice) (additional : Z) : out (mem * slice) :=
    if (Z.of_nat (Capacity m v) <? (Z.of_nat (Len v) + additional) mod 2 ^ 64)%Z then
      if (2 ^ 63 <=? additional)%Z then Panic
      else Ret (append m v (repeat zero (Z.to_nat additional)))
    else Ret (m, v).
  (** vec.go:84-86. *)
  Definition Push (m : mem) (v : slice) (value : T) : mem * slice := append m v [value].
  (** vec.go:95-103. *)
  Definition Pop (m : mem) (v : slice) : out (slice * option T) :=
    if slen v =? 0 then Ret (v, None)
    else value <- idx (contents m v) (slen v - 1) ;; Ret (reslice v (slen v - 1), Some value).
  (** vec.go:113-116: (memory, self, other). *)
  Definition Append (m : mem) (v other : slice) : mem * slice * slice :=
    let (m1, v') := append m v (contents m other) in
    let (m2, o') := make_len m1 0 in (m2, v', o').
  (** vec.go:125-127. *)
  Definition Clear (m : mem) : mem * slice := make_len m 0.
  (** vec.go:130-132: the slice itself, no copy. *)
  Definition AsSlice (v : slice) : slice := v.
  (** copy(d[i+1:], d[i:]) within one slice: memmove of min(len-i-1, len-i) elements. *)
  Definition shift_right (d : list T) (i : nat) : out (list T) :=
    if (i + 1 <=? length d) && (i <=? length d)
    then Ret (firstn (i + 1) d ++ firstn (length d - (i + 1)) (skipn i d))
    else Panic.
  (** vec.go:142-146: append first, then shift and store. *)
  Definition Insert (m : mem) (v : slice) (index : nat) (value : T) : out (mem * slice) :=
    let (m1, v1) := append m v [value] in
    m2 <- in_place m1 v1 (fun d => d1 <- shift_right d index ;; upd d1 index value) ;;
    Ret (m2, v1).
  (** vec.go:160-168: a new array of capacity len, filled by append. *)
  Definition Retain (m : mem) (v : slice) (predicate : T -> bool) : mem * slice :=
    let data := contents m v in
    let (m1, n) := make_cap m (slen v) in
    fold_left (fun st value => let '(m, n) := st in if predicate value then append m n [value] else (m, n)) data (m1, n).
  (** vec.go:182-193: keys are compared with Go's == ([keq]); the map [seen] is the
      list of keys met so far. *)
  Definition DedupByKey {K} (keq : K -> K -> bool) (m : mem) (v : slice) (key : T -> K) : mem * slice :=
    let data := contents m v in
    let (m1, n) := make_cap m (slen v) in
    let '(_, m2, n2) :=
      fold_left (fun st value => let '(seen, m, n) := st in
        let k := key value in
        if existsb (keq k) seen then (seen, m, n)
        else let (m', n') := append m n [value] in (k :: seen, m', n')) data ([], m1, n) in
    (m2, n2).
  (** vec.go:205-220: two indices; [deq] is reflect.DeepEqual. *)
  Definition dedup_step (deq : T -> T -> bool) (st : list T * nat) (i : nat) : out (list T * nat) :=
    let '(d, prev) := st in
    a <- idx d prev ;; b <- idx d i ;;
    if deq a b then Ret (d, prev)
    else d' <- upd d (prev + 1) b ;; Ret (d', prev + 1).
  Definition dedup_data (deq : T -> T -> bool) (d : list T) : out (list T * nat) :=
    oloop (dedup_step deq) (seq 1 (length d - 1)) (d, 0).
  Definition Dedup (deq : T -> T -> bool) (m : mem) (v : slice) : out (mem * slice) :=
    if slen v <=? 1 then Ret (m, v)
    else p <- dedup_data deq (contents m v) ;;
         Ret (store m v (fst p), reslice v (snd p + 1)).
  (** vec.go:232-250. *)
  Definition Get (m : mem) (v : slice) (index : nat) : out (option T) :=
    if Len v <=? index then Ret None else x <- idx (contents m v) index ;; Ret (Some x).
  Definition GetUnchecked (m : mem) (v : slice) (index : nat) : out T := idx (contents m v) index.
  (** vec.go:260-267: out of range it reads data[index], which panics. *)
  Definition Set_ (m : mem) (v : slice) (index : nat) (value : T) : out (mem * option T) :=
    if Len v <=? index then x <- idx (contents m v) index ;; Ret (m, Some x)
    else m' <- in_place m v (fun d => upd d index value) ;; Ret (m', None).
  (** vec.go:277-279. *)
  Definition SetUnchecked (m : mem) (v : slice) (index : nat) (value : T) : out mem :=
    in_place m v (fun d => upd d index value).
  (** vec.go:291-293: both right-hand sides are read first. *)
  Definition swap_data (d : list T) (a b : nat) : out (list T) :=
    x <- idx d b ;; y <- idx d a ;; d1 <- upd d a x ;; upd d1 b y.
  Definition Swap (m : mem) (v : slice) (a b : nat) : out mem := in_place m v (fun d => swap_data d a b).
  (** vec.go:303-307. *)
  Definition reverse_data (d : list T) : out (list T) :=
    oloop (fun d i => swap_data d i (length d - 1 - i)) (seq 0 (length d / 2)) d.
  Definition Reverse (m : mem) (v : slice) : out mem := in_place m v reverse_data.
  (** vec.go:319-326. *)
  Definition Contains (deq : T -> T -> bool) (m : mem) (v : slice) (value : T) : bool :=
    existsb (fun x => deq x value) (contents m v).
  (** vec.go:381-406 (BinarySearchBy) and 336-363 (BinarySearch, where [f] is the
      element's Cmp with the value, absent if there is none).  [low], [high] are
      Go ints, hence Z; the loop halves the interval, fuel length + 1. *)
  Fixpoint search_loop (fuel : nat) (f : T -> out ordering) (d : list T) (low high : Z) : out (option nat) :=
    match fuel with
    | O => Diverge
    | S k =>
      if (low <=? high)%Z then
        let mid := ((low + high) / 2)%Z in
        x <- idx d (Z.to_nat mid) ;;
        o <- f x ;;
        match o with
        | Less => search_loop k f d (mid + 1) high
        | Greater => search_loop k f d low (mid - 1)
        | Equal => Ret (Some (Z.to_nat mid))
        end
      else Ret None
    end.
  Definition search_data (f : T -> out ordering) (d : list T) : out (option nat) :=
    search_loop (length d + 1) f d 0 (Z.of_nat (length d) - 1).
  Definition BinarySearchBy (f : T -> ordering) (m : mem) (v : slice) : out (option nat) :=
    search_data (fun x => Ret (f x)) (contents m v).
  Definition BinarySearch (cmp : option (T -> T -> ordering)) (m : mem) (v : slice) (value : T) : out (option nat) :=
    search_data (fun x => c <- of_option cmp ;; Ret (c x value)) (contents m v).
  (** vec.go:413-417. *)
  Definition fill_data (value : T) (d : list T) : out (list T) :=
    oloop (fun d i => upd d i value) (seq 0 (length d)) d.
  Definition Fill (m : mem) (v : slice) (value : T) : out mem := in_place m v (fill_data value).
  (** vec.go:426-430. *)
  Fixpoint fill_with {S} (f : M S T) (n : nat) (i : nat) (d : list T) : M S (list T) :=
    match n with
    | O => mret d
    | Datatypes.S n' => x <~ f ;; match upd d i x with
                        | Ret d' => fill_with f n' (i + 1) d'
                        | _ => mpanic
                        end
    end.
  Definition FillWith {S} (m : mem) (v : slice) (f : M S T) : M S mem :=
    d <~ fill_with f (slen v) 0 (contents m v) ;; mret (store m v d).

  (** sort.SliceStable with less(i,j) = (d[i] < d[j]): the stable sort, by
      insertion (Go's library algorithm is replaced by its contract; see
      VecProps, where the result is shown to be the only stably sorted one, and
      SortLibProps, where the library's algorithm is shown to give it). *)
  Fixpoint insert_sorted (less : T -> T -> bool) (x : T) (l : list T) : list T :=
    match l with
    | [] => [x]
    | y :: r => if less y x then y :: insert_sorted less x r else x :: l
    end.
  Fixpoint stable_sort (less : T -> T -> bool) (l : list T) : list T :=
    match l with
    | [] => []
    | x :: r => insert_sorted less x (stable_sort less r)
    end.
  Definition is_less (o : ordering) : bool := match o with Less => true | _ => false end.
  (** vec.go:442-449: Sort panics if the elements have no Cmp and it is needed. *)
  Definition sort_data (cmp : option (T -> T -> ordering)) (d : list T) : out (list T) :=
    match cmp with
    | Some c => Ret (stable_sort (fun a b => is_less (c a b)) d)
    | None => if length d <=? 1 then Ret d else Panic
    end.
  Definition Sort (cmp : option (T -> T -> ordering)) (m : mem) (v : slice) : out mem := in_place m v (sort_data cmp).
  (** vec.go:471-478. *)
  Definition SortBy (compare : T -> T -> ordering) (m : mem) (v : slice) : out mem :=
    in_place m v (sort_data (Some compare)).

  (** *** Iterators over a vector.  [iv] is the vector's contents when IntoIter was
      called; the Go iterator shares the array, so this assumes that nobody writes
      to the vector during the iteration. *)
  Record VecIter := mkIter { iv : list T; position : nat }.
  (** vec.go:534-536. *)
  Definition IntoIter (d : list T) : VecIter := mkIter d 0.
  (** vec.go:539-548. *)
  Definition Next (it : VecIter) : out (VecIter * option T) :=
    if length (iv it) <=? position it then Ret (it, None)
    else x <- idx (iv it) (position it) ;; Ret (mkIter (iv it) (position it + 1), Some x).
  (** The loops of Map, Filter, Fold, Rev, Collect: call Next until None.  The
      receiver is a copy, so the caller's iterator does not advance. *)
  Fixpoint iter_loop {A} (fuel : nat) (f : A -> T -> out A) (it : VecIter) (a : A) : out A :=
    match fuel with
    | O => Diverge
    | Datatypes.S k =>
      p <- Next it ;;
      match snd p with
      | None => Ret a
      | Some x => a' <- f a x ;; iter_loop k f (fst p) a'
      end
    end.
  Definition iterate {A} (f : A -> T -> out A) (it : VecIter) (a : A) : out A :=
    iter_loop (length (iv it) + 1) f it a.
  (** vec.go:551-562. *)
  Definition It_Map (it : VecIter) (f : T -> T) : out VecIter :=
    d <- iterate (fun d x => Ret (d ++ [f x])) it [] ;; Ret (IntoIter d).
  (** vec.go:565-580. *)
  Definition It_Filter (it : VecIter) (f : T -> bool) : out VecIter :=
    d <- iterate (fun d x => Ret (if f x then d ++ [x] else d)) it [] ;; Ret (IntoIter d).
  (** vec.go:583-593. *)
  Definition It_Fold (it : VecIter) (init : T) (f : T -> T -> T) : out T :=
    iterate (fun a x => Ret (f a x)) it init.
  (** vec.go:596-609: writes from the end of a vector of full length; a negative
      index is 2^64-1, out of range. *)
  Definition It_Rev (it : VecIter) : out VecIter :=
    let newVec := repeat zero (length (iv it)) in
    let i := (Z.of_nat (length (iv it)) - 1)%Z in
    p <- iterate (fun st x => let '(d, i) := st in
           if (i <? 0)%Z then Panic else d' <- upd d (Z.to_nat i) x ;; Ret (d', (i - 1)%Z)) it (newVec, i) ;;
    Ret (IntoIter (fst p)).
  (** vec.go:612-633: CollectToVec; CollectToLinkedList does PushBack instead. *)
  Definition It_CollectToVec (it : VecIter) : out (list T) :=
    iterate (fun d x => Ret (d ++ [x])) it [].

  (** vec.go:636-665: Display and Debug, "Vec[" e ", " e "]". *)
  Fixpoint display_loop (display : option (T -> list Z)) (d : list T) (i n : nat) (buffer : list Z) : out (list Z) :=
    match d with
    | [] => Ret buffer
    | e :: r =>
      f <- of_option display ;;
      let buffer := buffer ++ f e in
      let buffer := if negb (i =? n - 1) then buffer ++ [44; 32]%Z else buffer in
      display_loop display r (i + 1) n buffer
    end.
  Definition Display (display : option (T -> list Z)) (m : mem) (v : slice) : out (list Z) :=
    b <- display_loop display (contents m v) 0 (slen v) [86; 101; 99; 91]%Z ;; Ret (b ++ [93])%Z.
  (** vec.go:673-682. *)
  Definition clone_data (clone : option (T -> T)) (d : list T) : out (list T) :=
    oloop (fun out i => x <- idx d i ;; c <- of_option clone ;; upd out i (c x)) (seq 0 (length d)) (repeat zero (length d)).
  Definition Clone (clone : option (T -> T)) (m : mem) (v : slice) : out (mem * slice) :=
    let (m1, cloned) := make_len m (slen v) in
    d <- clone_data clone (contents m v) ;;
    Ret (store m1 cloned d, cloned).
  (** vec.go:685-697. *)
  Fixpoint eq_loop (eq : option (T -> T -> bool)) (n i : nat) (a b : list T) : out bool :=
    match n with
    | O => Ret true
    | Datatypes.S n' =>
      x <- idx a i ;; e <- of_option eq ;; y <- idx b i ;;
      if negb (e x y) then Ret false else eq_loop eq n' (i + 1) a b
    end.
  Definition Eq (eq : option (T -> T -> bool)) (m : mem) (v other : slice) : out bool :=
    if negb (Len v =? Len other) then Ret false
    else eq_loop eq (Len v) 0 (contents m v) (contents m other).
End Slices.
Arguments mem T : clear implicits.
Arguments VecIter T : clear implicits.

(** sort.Slice (vec.go:489-525, SortUnstable and SortUnstableBy): the library's
    contract, for a strict weak order [less].  Any result allowed by the contract
    may occur; gost contributes only [less]. *)
Definition sort_Slice {T} (less : T -> T -> bool) (d d' : list T) : Prop :=
  Permutation d d' /\
  forall i j x y, i < j -> nth_error d' i = Some x -> nth_error d' j = Some y -> less y x = false.
Definition SortUnstableBy {T} (compare : T -> T -> ordering) (d d' : list T) : Prop :=
  sort_Slice (fun a b => is_less (compare a b)) d d'.
