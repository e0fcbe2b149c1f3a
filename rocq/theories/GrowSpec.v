(** GrowSpec.v -- what a deque's memory should depend on: the buffers made over a history
    and the largest one kept, in terms of the calls, the lengths and the capacities. *)
From Verif Require Import Base.
From Verif Require DequeSpec.
Local Open Scope Z_scope.

Section Spec.
  Context {T D : Type}.      (* elements, and deques *)
  (** A call of a method, or Append with some other deque. *)
  Inductive gop := Call (o : DequeSpec.dop (T := T)) | Appending (other : D).

  Definition is_push (o : gop) : Z :=
    match o with Call (DequeSpec.PushFront _) | Call (DequeSpec.PushBack _) => 1 | _ => 0 end.
  Definition is_clear (o : gop) : Z := match o with Call DequeSpec.Clear => 1 | _ => 0 end.
  Definition total (f : gop -> Z) (ops : list gop) : Z := fold_right (fun o n => f o + n) 0 ops.
  (** Neither Reserve nor Append. *)
  Definition ordinary (o : gop) : Prop :=
    match o with Call (DequeSpec.Reserve _) | Appending _ => False | _ => True end.

  (** The cells of the new buffer that a call made, if it made one: Clear always does, the
      other calls when the capacity is not what it was. *)
  Definition cells_made (o : gop) (before after : Z) : Z :=
    match o with
    | Call DequeSpec.Clear => after
    | _ => if after =? before then 0 else after
    end.
End Spec.
Arguments gop : clear implicits.
