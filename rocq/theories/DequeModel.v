(** DequeModel.v -- vec_deque.go.

    A deque is the struct of vec_deque.go:14-18 with its buffer held by value:
    for copies of a VecDeque struct that go on sharing one buffer see DequeShareModel.v.
    USize values are integers in [0, 2^64) and all index arithmetic wraps as in Go.
    [limit] is the largest length make accepts for the element type (a larger
    request is a run-time panic); it is below 2^63. *)
From Verif Require Import Base Effect VecModel.
Local Open Scope Z_scope.

Definition u64 (z : Z) : Z := z mod 2 ^ 64.

(** s[i] and s[i] = v for an unsigned index. *)
Definition bidx {A} (s : list A) (i : Z) : out A :=
  if (0 <=? i) && (i <? Z.of_nat (length s)) then idx s (Z.to_nat i) else Panic.
Definition bupd {A} (s : list A) (i : Z) (v : A) : out (list A) :=
  if (0 <=? i) && (i <? Z.of_nat (length s)) then upd s (Z.to_nat i) v else Panic.

(** A call without access to the closure's state, inside one that has it. *)
Definition mlift {S A} (m : out A) : M S A := fun s => a <- m ;; Ret (a, s).
(** A [for] loop whose body may call a closure. *)
Fixpoint mloop {S A X} (f : A -> X -> M S A) (l : list X) (a : A) : M S A :=
  match l with
  | [] => mret a
  | x :: r => a' <~ f a x ;; mloop f r a'
  end.

Section Deque.
  Context {T : Type}.
  Variable zero : T.
  Variable limit : Z.

  Record VecDeque := mkDeque { buffer : list T; dlen : Z; head : Z }.

  Definition make (n : Z) : out (list T) :=
    if n <=? limit then Ret (repeat zero (Z.to_nat n)) else Panic.

  (** vec_deque.go:9-10. *)
  Definition initial_capacity : Z := 7.
  Definition minimum_capacity : Z := 1.

  (** vec_deque.go:26-32, 21-23, 35-40. *)
  Definition VecDequeWithCapacity (capacity : Z) : out VecDeque :=
    let capacity := if capacity <? minimum_capacity then minimum_capacity else capacity in
    b <- make capacity ;; Ret (mkDeque b 0 0).
  Definition VecDequeNew : out VecDeque := VecDequeWithCapacity initial_capacity.
  Definition VecDequeWithLen (len : Z) : out VecDeque :=
    d <- VecDequeWithCapacity len ;; Ret (mkDeque (buffer d) len (head d)).

  (** vec_deque.go:48-72. *)
  Definition Len (d : VecDeque) : Z := dlen d.
  Definition IsEmpty (d : VecDeque) : bool := dlen d =? 0.
  Definition Capacity (d : VecDeque) : Z := Z.of_nat (length (buffer d)).

  (** vec_deque.go:670-696. *)
  Definition WrapIndex (logicalIndex capacity : Z) : Z :=
    if capacity <=? logicalIndex then u64 (logicalIndex - capacity) else logicalIndex.
  Definition WrapAdd (d : VecDeque) (index addend : Z) : Z :=
    WrapIndex (u64 (index + addend)) (Capacity d).
  Definition WrapSub (d : VecDeque) (index subtrahend : Z) : Z :=
    WrapIndex (u64 (u64 (index - subtrahend) + Capacity d)) (Capacity d).
  Definition ToPhysicalIndex (d : VecDeque) (index : Z) : Z := WrapAdd d (head d) index.

  (** vec_deque.go:660-667: copy(b[dst:dst+n], b[src:]), a memmove of as many
      elements as both sides have. *)
  Definition Copy (b : list T) (src dst n : Z) : out (list T) :=
    let len := Z.of_nat (length b) in
    let fin := u64 (dst + n) in
    if (dst <=? fin) && (fin <=? len) && (src <=? len) then
      let d := Z.to_nat dst in
      let s := Z.to_nat src in
      let k := Nat.min (Z.to_nat (fin - dst)) (length b - s) in
      Ret (firstn d b ++ firstn k (skipn s b) ++ skipn (d + k) b)
    else Panic.
  (** vec_deque.go:612-657. *)
  Definition HandleCapacityIncrease (d : VecDeque) (oldCapacity : Z) : out VecDeque :=
    let newCapacity := Capacity d in
    if newCapacity <? oldCapacity then Panic
    else if head d <=? u64 (oldCapacity - dlen d) then Ret d
    else
      let headLen := u64 (oldCapacity - head d) in
      let tailLen := u64 (dlen d - headLen) in
      if (tailLen <? headLen) && (tailLen <=? u64 (newCapacity - oldCapacity)) then
        b <- Copy (buffer d) 0 oldCapacity tailLen ;; Ret (mkDeque b (dlen d) (head d))
      else
        let newHead := u64 (newCapacity - headLen) in
        b <- Copy (buffer d) (head d) newHead headLen ;; Ret (mkDeque b (dlen d) newHead).
  (** copy(newBuffer, self.buffer), for a newBuffer at least as long. *)
  Definition copy_into (new old : list T) : list T :=
    let k := Nat.min (length new) (length old) in firstn k old ++ skipn k new.
  (** vec_deque.go:82-94: the sum wraps, so a huge request can do nothing. *)
  Definition Reserve (d : VecDeque) (additional : Z) : out VecDeque :=
    let oldCapacity := Capacity d in
    let newCapacity := u64 (oldCapacity + additional) in
    if oldCapacity <? newCapacity then
      b <- make newCapacity ;;
      HandleCapacityIncrease (mkDeque (copy_into b (buffer d)) (dlen d) (head d)) oldCapacity
    else Ret d.
  (** vec_deque.go:583-585, 590-608. *)
  Definition IsFull (d : VecDeque) : bool := dlen d =? Capacity d.
  Definition Grow (d : VecDeque) : out VecDeque :=
    if negb (IsFull d) then Panic
    else
      let oldCapacity := Capacity d in
      let newCapacity := u64 (oldCapacity * 2) in
      b <- make newCapacity ;;
      d' <- HandleCapacityIncrease (mkDeque (copy_into b (buffer d)) (dlen d) (head d)) oldCapacity ;;
      if IsFull d' then Panic else Ret d'.

  (** vec_deque.go:102-110. *)
  Definition PushFront (d : VecDeque) (value : T) : out VecDeque :=
    d <- (if IsFull d then Grow d else Ret d) ;;
    let h := WrapSub d (head d) 1 in
    b <- bupd (buffer d) h value ;;
    Ret (mkDeque b (u64 (dlen d + 1)) h).
  (** vec_deque.go:118-125. *)
  Definition PushBack (d : VecDeque) (value : T) : out VecDeque :=
    d <- (if IsFull d then Grow d else Ret d) ;;
    b <- bupd (buffer d) (ToPhysicalIndex d (dlen d)) value ;;
    Ret (mkDeque b (u64 (dlen d + 1)) (head d)).
  (** vec_deque.go:135-147. *)
  Definition PopFront (d : VecDeque) : out (VecDeque * option T) :=
    if IsEmpty d then Ret (d, None)
    else
      let oldHead := head d in
      let d' := mkDeque (buffer d) (u64 (dlen d - 1)) (ToPhysicalIndex d 1) in
      value <- bidx (buffer d) oldHead ;; Ret (d', Some value).
  (** vec_deque.go:157-164. *)
  Definition PopBack (d : VecDeque) : out (VecDeque * option T) :=
    if IsEmpty d then Ret (d, None)
    else
      let d' := mkDeque (buffer d) (u64 (dlen d - 1)) (head d) in
      value <- bidx (buffer d') (ToPhysicalIndex d' (dlen d')) ;; Ret (d', Some value).

  (** vec_deque.go:265-307. *)
  Definition Get (d : VecDeque) (index : Z) : out (option T) :=
    if Len d <=? index then Ret None
    else x <- bidx (buffer d) (ToPhysicalIndex d index) ;; Ret (Some x).
  Definition GetUnchecked (d : VecDeque) (index : Z) : out T :=
    bidx (buffer d) (ToPhysicalIndex d index).
  Definition Set_ (d : VecDeque) (index : Z) (value : T) : out (VecDeque * option T) :=
    if Len d <=? index then Ret (d, Some value)
    else b <- bupd (buffer d) (ToPhysicalIndex d index) value ;; Ret (mkDeque b (dlen d) (head d), None).
  Definition SetUnchecked (d : VecDeque) (index : Z) (value : T) : out VecDeque :=
    b <- bupd (buffer d) (ToPhysicalIndex d index) value ;; Ret (mkDeque b (dlen d) (head d)).
  (** vec_deque.go:315-327. *)
  Definition Back (d : VecDeque) : out (option T) := Get d (u64 (Len d - 1)).
  Definition Front (d : VecDeque) : out (option T) := Get d 0.
  (** vec_deque.go:336-340. *)
  Definition Clear (d : VecDeque) : out VecDeque := b <- make initial_capacity ;; Ret (mkDeque b 0 0).
  (** vec_deque.go:247-256: both right-hand sides are read first. *)
  Definition Swap (d : VecDeque) (a b : Z) : out VecDeque :=
    if a =? b then Ret d
    else
      let a := ToPhysicalIndex d a in
      let b := ToPhysicalIndex d b in
      x <- bidx (buffer d) b ;; y <- bidx (buffer d) a ;;
      b1 <- bupd (buffer d) a x ;; b2 <- bupd b1 b y ;; Ret (mkDeque b2 (dlen d) (head d)).

  (** The values of i in [for i := USize(from); i < len; i++]. *)
  Definition indices (from len : Z) : list Z := map (fun k => from + Z.of_nat k) (seq 0 (Z.to_nat (len - from))).

  (** vec_deque.go:175-183, [other] being another deque: (self, other). *)
  Definition Append (d other : VecDeque) : out (VecDeque * VecDeque) :=
    d <- Reserve d (Len other) ;;
    d <- oloop (fun d i => x <- GetUnchecked other i ;; PushBack d x) (indices 0 (Len other)) d ;;
    other <- Clear other ;; Ret (d, other).
  (** The same call with other = self: the length tested by the loop grows. *)
  Fixpoint append_self_loop (fuel : nat) (d : VecDeque) (i : Z) : out VecDeque :=
    match fuel with
    | O => Diverge
    | S k => if i <? Len d then x <- GetUnchecked d i ;; d <- PushBack d x ;; append_self_loop k d (u64 (i + 1))
             else Ret d
    end.
  Definition AppendSelf (fuel : nat) (d : VecDeque) : out VecDeque :=
    d <- Reserve d (Len d) ;; d <- append_self_loop fuel d 0 ;; Clear d.
  (** vec_deque.go:196-208: the predicate may have effects (but cannot touch the deque). *)
  Definition Retain {S} (d : VecDeque) (f : T -> M S bool) : M S VecDeque :=
    p <~ mloop (fun st i => let '(d, newLen) := st in
           value <~ mlift (GetUnchecked d i) ;;
           keep <~ f value ;;
           if (keep : bool) then d <~ mlift (SetUnchecked d newLen value) ;; mret (d, u64 (newLen + 1)) else mret (d, newLen))
         (indices 0 (Len d)) (d, 0) ;;
    mret (mkDeque (buffer (fst p)) (snd p) (head (fst p))).
  (** vec_deque.go:220-235: [eq] is the element type's Eq if it has one; the key
      argument is not used. *)
  Definition Dedup (eq : option (T -> T -> bool)) (d : VecDeque) : out VecDeque :=
    if IsEmpty d then Ret d
    else
      p <- oloop (fun st i => let '(d, newLen) := st in
             x <- GetUnchecked d i ;; e <- of_option eq ;; y <- GetUnchecked d (u64 (newLen - 1)) ;;
             if negb (e x y) then d <- SetUnchecked d newLen x ;; Ret (d, u64 (newLen + 1)) else Ret (d, newLen))
           (indices 1 (Len d)) (d, 1) ;;
      Ret (mkDeque (buffer (fst p)) (snd p) (head (fst p))).
  (** vec_deque.go:343-345: the first len cells of the buffer. *)
  Definition AsSlice (d : VecDeque) : out (list T) :=
    if dlen d <=? Capacity d then Ret (firstn (Z.to_nat (dlen d)) (buffer d)) else Panic.
  (** Get(i).Unwrap(). *)
  Definition get_unwrap (d : VecDeque) (i : Z) : out T := o <- Get d i ;; of_option o.
  (** vec_deque.go:358-373. *)
  Fixpoint contains_loop (e : T -> T -> bool) (value : T) (d : VecDeque) (is_ : list Z) : out bool :=
    match is_ with
    | [] => Ret false
    | i :: r => x <- get_unwrap d i ;; if e value x then Ret true else contains_loop e value d r
    end.
  Definition Contains (eq : option (T -> T -> bool)) (d : VecDeque) (value : T) : out bool :=
    e <- of_option eq ;; contains_loop e value d (indices 0 (Len d)).
  (** vec_deque.go:381-399. *)
  Definition Fill (d : VecDeque) (value : T) : out VecDeque :=
    oloop (fun d i => SetUnchecked d i value) (indices 0 (Len d)) d.
  Definition FillWith {S} (d : VecDeque) (f : M S T) : M S VecDeque :=
    mloop (fun d i => x <~ f ;; mlift (SetUnchecked d i x)) (indices 0 (Len d)) d.
  (** vec_deque.go:409-479: the search reads the buffer, not the logical sequence. *)
  Definition BinarySearchBy (f : T -> ordering) (d : VecDeque) : out (option nat) :=
    search_loop (Z.to_nat (dlen d) + 1) (fun x => Ret (f x)) (buffer d) 0 (dlen d - 1).
  Definition BinarySearch (cmp : option (T -> T -> ordering)) (d : VecDeque) (value : T) : out (option nat) :=
    search_loop (Z.to_nat (dlen d) + 1) (fun x => c <- of_option cmp ;; Ret (c x value)) (buffer d) 0 (dlen d - 1).
  (** vec_deque.go:493-505, 527-531: the first len cells of the buffer are sorted
      (sort.SliceStable is taken by its contract, as in VecModel). *)
  Definition Sort (cmp : option (T -> T -> ordering)) (d : VecDeque) : out VecDeque :=
    s <- AsSlice d ;; s' <- sort_data cmp s ;;
    Ret (mkDeque (s' ++ skipn (length s') (buffer d)) (dlen d) (head d)).
  Definition SortBy (compare : T -> T -> ordering) (d : VecDeque) : out VecDeque := Sort (Some compare) d.
  (** vec_deque.go:542-580: sort.Slice by its contract, any allowed result. *)
  Definition SortUnstableBy (compare : T -> T -> ordering) (d d' : VecDeque) : Prop :=
    exists s s', AsSlice d = Ret s /\ VecModel.SortUnstableBy compare s s' /\
      d' = mkDeque (s' ++ skipn (length s') (buffer d)) (dlen d) (head d).

  (** *** Iterators (vec_deque.go:699-707): a pointer to a copy of the deque. *)
  Record VecDequeIter := mkIter { deque : VecDeque; position : Z }.
  Definition IntoIter (d : VecDeque) : VecDequeIter := mkIter d 0.
  (** vec_deque.go:710-719. *)
  Definition Next (it : VecDequeIter) : out (VecDequeIter * option T) :=
    if Len (deque it) <=? position it then Ret (it, None)
    else v <- Get (deque it) (position it) ;; Ret (mkIter (deque it) (u64 (position it + 1)), v).
  (** vec_deque.go:722-730. *)
  Definition It_Map {S} (it : VecDequeIter) (f : T -> M S T) : M S VecDequeIter :=
    n <~ mlift (VecDequeWithCapacity (Capacity (deque it))) ;;
    n <~ mloop (fun n i => x <~ mlift (get_unwrap (deque it) i) ;; y <~ f x ;; mlift (PushBack n y))
           (indices 0 (Len (deque it))) n ;;
    mret (IntoIter n).
  (** vec_deque.go:733-744. *)
  Definition It_Filter {S} (it : VecDequeIter) (f : T -> M S bool) : M S VecDequeIter :=
    n <~ mlift (VecDequeWithCapacity (Capacity (deque it))) ;;
    n <~ mloop (fun n i => x <~ mlift (get_unwrap (deque it) i) ;; b <~ f x ;;
                           if (b : bool) then mlift (PushBack n x) else mret n)
           (indices 0 (Len (deque it))) n ;;
    mret (IntoIter n).
  (** vec_deque.go:747-755. *)
  Definition It_Fold {S} (it : VecDequeIter) (initial : T) (f : T -> T -> M S T) : M S T :=
    mloop (fun a i => x <~ mlift (get_unwrap (deque it) i) ;; f a x) (indices 0 (Len (deque it))) initial.
  (** vec_deque.go:758-766: i is unsigned, so i >= 0 always holds. *)
  Fixpoint rev_loop (fuel : nat) (d n : VecDeque) (i : Z) : out VecDeque :=
    match fuel with
    | O => Diverge
    | S k => x <- get_unwrap d i ;; n <- PushBack n x ;; rev_loop k d n (u64 (i - 1))
    end.
  Definition It_Rev (it : VecDequeIter) : out VecDequeIter :=
    n <- VecDequeWithCapacity (Capacity (deque it)) ;;
    n <- rev_loop (Z.to_nat (Len (deque it)) + 1) (deque it) n (u64 (Len (deque it) - 1)) ;;
    Ret (IntoIter n).
  (** vec_deque.go:769-788: CollectToVec pushes to a new vector, CollectToLinkedList
      to a new linked list. *)
  Definition It_Collect (it : VecDequeIter) : out (list T) :=
    oloop (fun l i => x <- get_unwrap (deque it) i ;; Ret (l ++ [x])) (indices 0 (Len (deque it))) [].

  (** vec_deque.go:791-820: Display and Debug. *)
  Definition Display (display : option (T -> list Z)) (d : VecDeque) : out (list Z) :=
    b <- oloop (fun b i =>
           e <- get_unwrap d i ;; f <- of_option display ;;
           let b := b ++ f e in
           Ret (if negb (i =? u64 (Len d - 1)) then b ++ [44; 32] else b))
         (indices 0 (Len d)) [86; 101; 99; 68; 101; 113; 117; 101; 91] ;;
    Ret (b ++ [93]).
  (** vec_deque.go:828-836: elements are copied by assignment. *)
  Definition Clone (d : VecDeque) : out VecDeque :=
    n <- VecDequeWithCapacity (Capacity d) ;;
    oloop (fun n i => x <- get_unwrap d i ;; PushBack n x) (indices 0 (Len d)) n.
  (** vec_deque.go:839-851. *)
  Fixpoint eq_loop (eq : option (T -> T -> bool)) (d other : VecDeque) (is_ : list Z) : out bool :=
    match is_ with
    | [] => Ret true
    | i :: r => x <- get_unwrap d i ;; e <- of_option eq ;; y <- get_unwrap other i ;;
                if negb (e x y) then Ret false else eq_loop eq d other r
    end.
  Definition Eq (eq : option (T -> T -> bool)) (d other : VecDeque) : out bool :=
    if negb (Len d =? Len other) then Ret false else eq_loop eq d other (indices 0 (Len d)).
End Deque.
Arguments VecDeque T : clear implicits.
Arguments VecDequeIter T : clear implicits.
