(** AnyCmpSpec.v -- a bag from which elements are taken in no particular order (C114). *)
From Coq Require Import Permutation.
From Verif Require Import Base.

Section Bag.
  Context {T : Type}.
  (** [Write i x]: the user assigns x to element i of the slice that AsSlice returns;
      there is no such element if i is not below the length. *)
  Inductive bag_op := Push (x : T) | Pop | Length | Clear | Sorted | Write (i : nat) (x : T).
  Inductive bag_answer := Nothing | Popped (o : option T) | Count (n : nat) | Listed (l : list T) | OutOfRange.

  Inductive bag_step : list T -> bag_op -> list T -> bag_answer -> Prop :=
  | b_push : forall bag x, bag_step bag (Push x) (x :: bag) Nothing
  | b_pop_empty : bag_step [] Pop [] (Popped None)
  | b_pop : forall bag x rest, Permutation bag (x :: rest) -> bag_step bag Pop rest (Popped (Some x))
  | b_length : forall bag, bag_step bag Length bag (Count (length bag))
  | b_clear : forall bag, bag_step bag Clear [] Nothing
  | b_sorted : forall bag l, Permutation bag l -> bag_step bag Sorted [] (Listed l)
  | b_write : forall bag i x y rest, i < length bag -> Permutation bag (y :: rest) -> bag_step bag (Write i x) (x :: rest) Nothing
  | b_write_out : forall bag i x, length bag <= i -> bag_step bag (Write i x) bag OutOfRange.
  Inductive bag_run : list T -> list bag_op -> list T -> list bag_answer -> Prop :=
  | b_nil : forall bag, bag_run bag [] bag []
  | b_cons : forall bag o bag1 a ops bag2 l, bag_step bag o bag1 a -> bag_run bag1 ops bag2 l -> bag_run bag (o :: ops) bag2 (a :: l).
End Bag.
Arguments bag_op T : clear implicits.
Arguments bag_answer T : clear implicits.
