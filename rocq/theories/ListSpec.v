(** ListSpec.v -- what linked lists should do, in terms of plain lists. *)
From Verif Require Import Base Effect VecSpec.
From Verif Require Import ListModel.
Local Open Scope Z_scope.

(** *** Reading a heap by following pointers *)
Section Walk.
  Context {T : Type}.
  (** Following next from p meets the nodes at these addresses, with these values,
      and then nil. *)
  Inductive forward (h : heap T) : option nat -> list nat -> list T -> Prop :=
  | forward_nil : forward h None [] []
  | forward_node : forall a n addrs values, nth_error h a = Some n ->
      forward h (next n) addrs values -> forward h (Some a) (a :: addrs) (value n :: values).
  (** Following prev from p. *)
  Inductive backward (h : heap T) : option nat -> list nat -> list T -> Prop :=
  | backward_nil : backward h None [] []
  | backward_node : forall a n addrs values, nth_error h a = Some n ->
      backward h (prev n) addrs values -> backward h (Some a) (a :: addrs) (value n :: values).

  (** The list consists of the nodes at [addrs] and shows the sequence [xs]: forward
      links, backward links and length agree. *)
  Definition list_shows (h : heap T) (l : LinkedList) (addrs : list nat) (xs : list T) : Prop :=
    forward h (head l) addrs xs /\ backward h (tail l) (rev addrs) (rev xs) /\ Len l = Z.of_nat (length xs).
  Definition apart (as1 as2 : list nat) : Prop := forall a, In a as1 -> In a as2 -> False.
  (** No node that existed before has changed. *)
  Definition extends (h h' : heap T) : Prop := forall a n, nth_error h a = Some n -> nth_error h' a = Some n.
End Walk.

(** *** Several lists, used together *)
Section History.
  Context {T : Type}.
  Inductive lop :=
  | New                                   (* another list, empty *)
  | PushFront (v : nat) (x : T) | PushBack (v : nat) (x : T) | PopFront (v : nat) | PopBack (v : nat)
  | Front (v : nat) | Back (v : nat) | WriteFront (v : nat) (x : T) | WriteBack (v : nat) (x : T)
  | Clear (v : nat) | Len (v : nat) | IsEmpty (v : nat)
  | Append (v w : nat) | Clone (v : nat) | Eq (v w : nat) | Elements (v : nat).
  Inductive lanswer := Done | Value (o : option T) | Number (n : Z) | Truth (b : bool) | Many (l : list T).

  Variable eqb : T -> T -> bool.    (* the elements' Eq *)
  Variable clone : T -> T.          (* the elements' Clone *)

  (** One call; the state is the sequence of every list. *)
  Inductive lstep : list (list T) -> lop -> list (list T) -> lanswer -> Prop :=
  | l_new : forall w, lstep w New (w ++ [[]]) Done
  | l_push_front : forall w v x l, nth_error w v = Some l -> lstep w (PushFront v x) (list_set w v (x :: l)) Done
  | l_push_back : forall w v x l, nth_error w v = Some l -> lstep w (PushBack v x) (list_set w v (l ++ [x])) Done
  | l_pop_front_empty : forall w v, nth_error w v = Some [] -> lstep w (PopFront v) w (Value None)
  | l_pop_front : forall w v x l, nth_error w v = Some (x :: l) -> lstep w (PopFront v) (list_set w v l) (Value (Some x))
  | l_pop_back_empty : forall w v, nth_error w v = Some [] -> lstep w (PopBack v) w (Value None)
  | l_pop_back : forall w v x l, nth_error w v = Some (l ++ [x]) -> lstep w (PopBack v) (list_set w v l) (Value (Some x))
  | l_front : forall w v l, nth_error w v = Some l -> lstep w (Front v) w (Value (hd_error l))
  | l_back : forall w v l, nth_error w v = Some l -> lstep w (Back v) w (Value (hd_error (rev l)))
  | l_write_front : forall w v x y l, nth_error w v = Some (y :: l) -> lstep w (WriteFront v x) (list_set w v (x :: l)) Done
  | l_write_back : forall w v x y l, nth_error w v = Some (l ++ [y]) -> lstep w (WriteBack v x) (list_set w v (l ++ [x])) Done
  | l_clear : forall w v l, nth_error w v = Some l -> lstep w (Clear v) (list_set w v []) Done
  | l_len : forall w v l, nth_error w v = Some l -> lstep w (Len v) w (Number (Z.of_nat (length l)))
  | l_is_empty : forall w v l, nth_error w v = Some l -> lstep w (IsEmpty v) w (Truth (match l with [] => true | _ => false end))
  | l_append : forall w v u l k, v <> u -> nth_error w v = Some l -> nth_error w u = Some k ->
      lstep w (Append v u) (list_set (list_set w v (l ++ k)) u []) Done
  | l_clone : forall w v l, nth_error w v = Some l -> lstep w (Clone v) (w ++ [map clone l]) Done
  | l_eq : forall w v u l k, nth_error w v = Some l -> nth_error w u = Some k ->
      lstep w (Eq v u) w (Truth (same_elements eqb l k))
  | l_elements : forall w v l, nth_error w v = Some l -> lstep w (Elements v) w (Many l).

  (** No list outgrows the length counter. *)
  Definition countable (w : list (list T)) : Prop := Forall (fun l => Z.of_nat (length l) < 2 ^ 64) w.
  Inductive lhistory : list (list T) -> list lop -> list (list T) -> list lanswer -> Prop :=
  | h_nil : forall w, lhistory w [] w []
  | h_cons : forall w o w1 a ops w2 r,
      lstep w o w1 a -> countable w1 -> lhistory w1 ops w2 r -> lhistory w (o :: ops) w2 (a :: r).
End History.
Arguments lop T : clear implicits.
Arguments lanswer T : clear implicits.
