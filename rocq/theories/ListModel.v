(** ListModel.v -- LinkedList (linked_list.go).

    Nodes live in a heap: a list of nodes, a pointer being an index ([None] is nil).
    Allocation appends; nothing is ever freed (the garbage collector is not
    observable).  A method with a pointer receiver takes the struct and returns its
    new value; methods run in the monad [M heap].

    Closures passed in by the user run on a state [S] of their own next to the heap:
    they are assumed not to touch the lists being iterated.  Clone, Eq and Display of
    the elements are functions without effect, [None] when the element type does not
    implement the trait. *)
From Verif Require Import Base Effect.
Local Open Scope Z_scope.

Section LinkedList.
  Context {T : Type}.

  (** linked_list.go:12-16. *)
  Record node := mkNode { value : T; next : option nat; prev : option nat }.
  Definition heap := list node.
  (** linked_list.go:6-10. *)
  Record LinkedList := mkList { head : option nat; tail : option nat; len : Z }.

  (** USize arithmetic wraps. *)
  Definition u64 (z : Z) : Z := z mod 2 ^ 64.

  (** p.field; a nil pointer panics. *)
  Definition load (p : option nat) : M heap node := fun h => a <- of_option p ;; n <- idx h a ;; Ret (n, h).
  (** p.next = q; p.prev = q. *)
  Definition set_next (p q : option nat) : M heap unit :=
    fun h => a <- of_option p ;; n <- idx h a ;; h' <- upd h a (mkNode (value n) q (prev n)) ;; Ret (tt, h').
  Definition set_prev (p q : option nat) : M heap unit :=
    fun h => a <- of_option p ;; n <- idx h a ;; h' <- upd h a (mkNode (value n) (next n) q) ;; Ret (tt, h').
  (** *p = x for a pointer p to a node's value. *)
  Definition store (p : option nat) (x : T) : M heap unit :=
    fun h => a <- of_option p ;; n <- idx h a ;; h' <- upd h a (mkNode x (next n) (prev n)) ;; Ret (tt, h').
  (** &newNode *)
  Definition alloc (n : node) : M heap (option nat) := fun h => Ret (Some (length h), h ++ [n]).
  Definition when (p : option nat) (m : M heap unit) : M heap unit :=      (* if p != nil { m } *)
    match p with Some _ => m | None => mret tt end.

  (** linked_list.go:19-21. *)
  Definition LinkedListNew : LinkedList := mkList None None 0.
  (** linked_list.go:30-32. *)
  Definition Len (l : LinkedList) : Z := len l.
  (** linked_list.go:42-44. *)
  Definition IsEmpty (l : LinkedList) : bool := len l =? 0.
  (** linked_list.go:54-58. *)
  Definition Clear (l : LinkedList) : LinkedList := mkList None None 0.

  (** linked_list.go:67-87. *)
  Definition PushBack (l : LinkedList) (x : T) : M heap LinkedList :=
    newNode <~ alloc (mkNode x None (tail l)) ;;
    _ <~ when (tail l) (set_next (tail l) newNode) ;;
    mret (mkList (match head l with None => newNode | h => h end) newNode (u64 (len l + 1))).

  (** linked_list.go:98-115. *)
  Definition PopBack (l : LinkedList) : M heap (LinkedList * option T) :=
    match tail l with
    | None => mret (l, None)
    | Some _ =>
        n <~ load (tail l) ;;
        _ <~ when (prev n) (set_next (prev n) None) ;;
        mret (mkList (match prev n with Some _ => head l | None => None end) (prev n) (u64 (len l - 1)), Some (value n))
    end.

  (** linked_list.go:124-130: a pointer to the value in the last node. *)
  Definition Back (l : LinkedList) : option nat := tail l.

  (** linked_list.go:139-159. *)
  Definition PushFront (l : LinkedList) (x : T) : M heap LinkedList :=
    newNode <~ alloc (mkNode x (head l) None) ;;
    _ <~ when (head l) (set_prev (head l) newNode) ;;
    mret (mkList newNode (match tail l with None => newNode | t => t end) (u64 (len l + 1))).

  (** linked_list.go:169-186. *)
  Definition PopFront (l : LinkedList) : M heap (LinkedList * option T) :=
    match head l with
    | None => mret (l, None)
    | Some _ =>
        n <~ load (head l) ;;
        _ <~ when (next n) (set_prev (next n) None) ;;
        mret (mkList (next n) (match next n with Some _ => tail l | None => None end) (u64 (len l - 1)), Some (value n))
    end.

  (** linked_list.go:195-201. *)
  Definition Front (l : LinkedList) : option nat := head l.

  (** linked_list.go:217-234, for two different lists: new values of both. *)
  Definition Append (l other : LinkedList) : M heap (LinkedList * LinkedList) :=
    match head other with
    | None => mret (l, other)
    | Some _ =>
        match head l with
        | None => mret (mkList (head other) (tail other) (len other), Clear other)
        | Some _ =>
            _ <~ set_next (tail l) (head other) ;;
            _ <~ set_prev (head other) (tail l) ;;
            mret (mkList (head l) (tail other) (u64 (len l + len other)), Clear other)
        end
    end.
  (** The same code when other is the receiver itself; the last call clears it. *)
  Definition AppendSelf (l : LinkedList) : M heap LinkedList :=
    match head l with
    | None => mret l
    | Some _ =>
        _ <~ set_next (tail l) (head l) ;;
        _ <~ set_prev (head l) (tail l) ;;
        mret (Clear (mkList (head l) (tail l) (u64 (len l + len l))))
    end.

  (** *** Iterators (linked_list.go:237-246) *)
  Record LinkedListIter := mkIter { pointer : option nat }.
  Definition IntoIter (l : LinkedList) : LinkedListIter := mkIter (head l).
  (** linked_list.go:249-258. *)
  Definition Next (it : LinkedListIter) : M heap (LinkedListIter * option T) :=
    match pointer it with
    | None => mret (it, None)
    | Some _ => n <~ load (pointer it) ;; mret (mkIter (next n), Some (value n))
    end.

  (** Heap code and closure code side by side. *)
  Definition onheap {S A} (m : M heap A) : M (heap * S) A :=
    fun hs => r <- m (fst hs) ;; Ret (fst r, (snd r, snd hs)).
  Definition onuser {S A} (m : M S A) : M (heap * S) A :=
    fun hs => r <- m (snd hs) ;; Ret (fst r, (fst hs, snd r)).

  (** for { value := it.Next(); if value.IsNone() { break }; body }.  The fuel is one
      more than the number of nodes when the loop starts: a walk that is longer than
      that visits a node twice and never ends. *)
  Fixpoint loop {S A} (fuel : nat) (it : LinkedListIter) (body : A -> T -> M (heap * S) A) (a : A) : M (heap * S) A :=
    match fuel with
    | O => fun _ => Diverge
    | Datatypes.S k =>
        p <~ onheap (Next it) ;;
        match snd p with
        | None => mret a
        | Some v => a' <~ body a v ;; loop k (fst p) body a'
        end
    end.
  Definition for_each {S A} (it : LinkedListIter) (body : A -> T -> M (heap * S) A) (a : A) : M (heap * S) A :=
    fun hs => loop (length (fst hs) + 1) it body a hs.

  (** linked_list.go:261-277. *)
  Definition It_Map {S} (it : LinkedListIter) (f : T -> M S T) : M (heap * S) LinkedListIter :=
    newList <~ for_each it (fun n v => y <~ onuser (f v) ;; onheap (PushBack n y)) LinkedListNew ;;
    mret (IntoIter newList).
  (** linked_list.go:280-298. *)
  Definition It_Filter {S} (it : LinkedListIter) (f : T -> M S bool) : M (heap * S) LinkedListIter :=
    newList <~ for_each it (fun n v => b <~ onuser (f v) ;; if (b : bool) then onheap (PushBack n v) else mret n) LinkedListNew ;;
    mret (IntoIter newList).
  (** linked_list.go:301-317. *)
  Definition It_Fold {S} (it : LinkedListIter) (init : T) (f : T -> T -> M S T) : M (heap * S) T :=
    for_each it (fun r v => onuser (f r v)) init.
  (** The loops without closure. *)
  Definition plain {A} (m : M (heap * unit) A) : M heap A :=
    fun h => r <- m (h, tt) ;; Ret (fst r, fst (snd r)).
  (** linked_list.go:320-336. *)
  Definition It_Rev (it : LinkedListIter) : M heap LinkedListIter :=
    newList <~ plain (for_each it (fun n v => onheap (PushBack n v)) LinkedListNew) ;; mret (IntoIter newList).
  (** linked_list.go:339-348: the Vec is represented by its elements. *)
  Definition It_CollectToVec (it : LinkedListIter) : M heap (list T) :=
    plain (for_each it (fun v x => mret (v ++ [x])) []).
  (** linked_list.go:351-360. *)
  Definition It_CollectToLinkedList (it : LinkedListIter) : M heap LinkedList :=
    plain (for_each it (fun n v => onheap (PushBack n v)) LinkedListNew).

  (** int(x) of a USize. *)
  Definition to_int (z : Z) : Z := (z + 2 ^ 63) mod 2 ^ 64 - 2 ^ 63.
  (** linked_list.go:363-396 (and Debug, 399-401): "LinkedList[" elements ", " "]". *)
  Definition Display (display : option (T -> list Z)) (l : LinkedList) : M heap (list Z) :=
    r <~ plain (for_each (IntoIter l) (fun acc e =>
      let '(buffer, count) := acc in
      d <~ (fun s => f <- of_option display ;; Ret (f e, s)) ;;
      let comma := if count <? to_int (Len l) - 1 then [44; 32] else [] in
      mret (buffer ++ d ++ comma, count + 1)) ([76; 105; 110; 107; 101; 100; 76; 105; 115; 116; 91], 0)) ;;
    mret (fst r ++ [93]).
  (** linked_list.go:409-432. *)
  Definition Clone (clone : option (T -> T)) (l : LinkedList) : M heap LinkedList :=
    plain (for_each (IntoIter l) (fun n e =>
      c <~ (fun s => f <- of_option clone ;; Ret (f e, s)) ;; onheap (PushBack n c)) LinkedListNew).
  (** linked_list.go:435-471: both iterators are advanced before either is tested. *)
  Fixpoint eq_loop (fuel : nat) (eq : option (T -> T -> bool)) (it1 it2 : LinkedListIter) : M heap bool :=
    match fuel with
    | O => fun _ => Diverge
    | S k =>
        p1 <~ Next it1 ;; p2 <~ Next it2 ;;
        match snd p1, snd p2 with
        | None, _ => mret true
        | _, None => mret true
        | Some e1, Some e2 =>
            b <~ (fun h => f <- of_option eq ;; Ret (f e1 e2, h)) ;;
            if (b : bool) then eq_loop k eq (fst p1) (fst p2) else mret false
        end
    end.
  Definition Eq (eq : option (T -> T -> bool)) (l rhs : LinkedList) : M heap bool :=
    if negb (Len l =? Len rhs) then mret false
    else fun h => eq_loop (length h + 1) eq (IntoIter l) (IntoIter rhs) h.
End LinkedList.
Arguments node T : clear implicits.
Arguments heap T : clear implicits.
