(** HeapSpec.v -- what a priority queue should do, in terms of a bag of elements
    (a list up to order). *)
From Coq Require Import Permutation.
From Verif Require Import Base VecSpec.

Section Queue.
  Context {T : Type}.
  Variable cmp : T -> T -> ordering.

  Inductive hop := Push (x : T) | Pop | Clear | Length.
  Inductive hanswer := Nothing | Popped (o : option T) | Count (n : nat).

  (** x is in the bag and nothing in it is greater. *)
  Definition greatest (bag : list T) (x : T) : Prop :=
    In x bag /\ forall y, In y bag -> le_by cmp y x.

  Inductive queue_step : list T -> hop -> list T -> hanswer -> Prop :=
  | q_push : forall bag x, queue_step bag (Push x) (x :: bag) Nothing
  | q_pop_empty : queue_step [] Pop [] (Popped None)
  | q_pop : forall bag x rest, Permutation bag (x :: rest) -> greatest bag x ->
      queue_step bag Pop rest (Popped (Some x))
  | q_clear : forall bag, queue_step bag Clear [] Nothing
  | q_len : forall bag, queue_step bag Length bag (Count (length bag)).

  Inductive queue_run : list T -> list hop -> list T -> list hanswer -> Prop :=
  | q_nil : forall bag, queue_run bag [] bag []
  | q_cons : forall bag o bag1 a ops bag2 l,
      queue_step bag o bag1 a -> queue_run bag1 ops bag2 l -> queue_run bag (o :: ops) bag2 (a :: l).
End Queue.
