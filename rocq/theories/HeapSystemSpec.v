(** HeapSystemSpec.v -- several priority queues with capacities (C116). *)
From Coq Require Import Permutation.
From Verif Require Import Base VecSpec HeapSpec.

Section Rooms.
  Context {T : Type}.
  Variable zero : T.
  Variable cmp : T -> T -> ordering.

  (** A queue: its elements (up to order), its capacity, and whether its elements are
      known to come out greatest first. *)
  Record room := mkRoom { bag : list T; cap : nat; ordered : Prop }.

  (** Room for n elements in all: the capacity stays if it is enough already. *)
  Definition room_for (c n c' : nat) : Prop := if n <=? c then c' = c else n <= c'.

  (** The heaps are numbered as they are made.  [Append i j] may name the same heap
      twice. *)
  Inductive sys_op :=
  | New | WithCapacity (n : nat) | WithLen (n : nat)
  | Push (i : nat) (x : T) | Pop (i : nat) | Clear (i : nat) | Reserve (i n : nat) | Append (i j : nat)
  | Len (i : nat) | IsEmpty (i : nat) | Capacity (i : nat) | Sorted (i : nat).
  Inductive sys_answer := Nothing | Popped (o : option T) | Count (n : nat) | Truth (b : bool) | Listed (l : list T) | NoHeap.

  (** Reserve puts n zero values in the queue if it has no room for n more.  They go to
      the end, so the order survives if no element is below the zero value. *)
  Inductive reserved : room -> nat -> room -> Prop :=
  | enough : forall r n, length (bag r) + n <= cap r -> reserved r n r
  | zeros : forall r n c, cap r < length (bag r) + n -> length (bag r) + n <= c ->
      reserved r n (mkRoom (repeat zero n ++ bag r) c (ordered r /\ Forall (le_by cmp zero) (bag r))).

  Inductive room_step : room -> sys_op -> room -> sys_answer -> Prop :=
  | s_push : forall r i x c, room_for (cap r) (S (length (bag r))) c ->
      room_step r (Push i x) (mkRoom (x :: bag r) c (ordered r)) Nothing
  | s_pop_empty : forall r i, bag r = [] -> room_step r (Pop i) r (Popped None)
  | s_pop : forall r i x rest, Permutation (bag r) (x :: rest) -> (ordered r -> greatest cmp (bag r) x) ->
      room_step r (Pop i) (mkRoom rest (cap r) (ordered r \/ length rest <= 1)) (Popped (Some x))
  | s_clear : forall r i, room_step r (Clear i) (mkRoom [] 0 True) Nothing
  | s_reserve : forall r i n r', reserved r n r' -> room_step r (Reserve i n) r' Nothing
  | s_len : forall r i, room_step r (Len i) r (Count (length (bag r)))
  | s_is_empty : forall r i, room_step r (IsEmpty i) r (Truth (length (bag r) =? 0))
  | s_capacity : forall r i, room_step r (Capacity i) r (Count (cap r))
  | s_sorted : forall r i l, Permutation (bag r) l -> (ordered r -> ascending cmp l) ->
      room_step r (Sorted i) (mkRoom [] (cap r) True) (Listed l).

  (** The heap an operation is about, and the queue a new heap starts as. *)
  Definition subject (o : sys_op) : option nat :=
    match o with
    | Push i _ | Pop i | Clear i | Reserve i _ | Len i | IsEmpty i | Capacity i | Sorted i => Some i
    | _ => None
    end.
  Definition start (o : sys_op) : option room :=
    match o with
    | New => Some (mkRoom [] 0 True)
    | WithCapacity n => Some (mkRoom [] n True)
    | WithLen n => Some (mkRoom (repeat zero n) n True)
    | _ => None
    end.

  Inductive sys_step : list room -> sys_op -> list room -> sys_answer -> Prop :=
  | y_new : forall rs o r, start o = Some r -> sys_step rs o (rs ++ [r]) Nothing
  | y_one : forall rs o i r r' a, subject o = Some i -> nth_error rs i = Some r -> room_step r o r' a ->
      sys_step rs o (list_set rs i r') a
  | y_none : forall rs o i, subject o = Some i -> nth_error rs i = None -> sys_step rs o rs NoHeap
  (** Two heaps: room for self's and other's elements is reserved, then all elements of
      other are added.  Other stays as it is. *)
  | y_append : forall rs i j r other r1 c, i <> j -> nth_error rs i = Some r -> nth_error rs j = Some other ->
      reserved r (length (bag r) + length (bag other)) r1 ->
      room_for (cap r1) (length (bag r1) + length (bag other)) c ->
      sys_step rs (Append i j) (list_set rs i (mkRoom (bag other ++ bag r1) c (ordered r1))) Nothing
  (** A heap and itself: as many elements are added as it has when room has been reserved;
      each equals one that it had, but not each of them need be added once. *)
  | y_append_self : forall rs i r r1 added c, nth_error rs i = Some r ->
      reserved r (length (bag r) + length (bag r)) r1 ->
      length added = length (bag r1) -> incl added (bag r1) ->
      room_for (cap r1) (length (bag r1) + length added) c ->
      sys_step rs (Append i i) (list_set rs i (mkRoom (added ++ bag r1) c (ordered r1))) Nothing
  | y_append_none : forall rs i j, nth_error rs i = None \/ nth_error rs j = None -> sys_step rs (Append i j) rs NoHeap.
  Inductive sys_run : list room -> list sys_op -> list room -> list sys_answer -> Prop :=
  | y_nil : forall rs, sys_run rs [] rs []
  | y_cons : forall rs o rs1 a ops rs2 l, sys_step rs o rs1 a -> sys_run rs1 ops rs2 l -> sys_run rs (o :: ops) rs2 (a :: l).
End Rooms.
Arguments sys_op T : clear implicits.
Arguments sys_answer T : clear implicits.
Arguments room T : clear implicits.
