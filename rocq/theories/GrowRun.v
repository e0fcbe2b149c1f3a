(** GrowRun.v -- histories of the deque of DequeModel.v in which the buffers are counted. *)
From Verif Require Import Base Effect GrowSpec.
From Verif Require DequeModel DequeSpec DequeHistory.
Local Open Scope Z_scope.

Section Run.
  Context {T : Type}.
  Variable zero : T.
  Variable limit : Z.
  Variable eqb : T -> T -> bool.
  Notation deque := (DequeModel.VecDeque T).

  (** One call; the answers are those of DequeHistory and are left out here. *)
  Definition step (d : deque) (o : gop T deque) : out deque :=
    match o with
    | Call o => p <- DequeHistory.exec zero limit eqb d o ;; Ret (fst p)
    | Appending e => p <- DequeModel.Append zero limit d e ;; Ret (fst p)
    end.
  (** A history: the deque it ends with, the cells of all the buffers made, and the greatest
      length there was. *)
  Fixpoint tally (d : deque) (ops : list (gop T deque)) : out (deque * Z * Z) :=
    match ops with
    | [] => Ret (d, 0, DequeModel.Len d)
    | o :: r =>
        d' <- step d o ;; q <- tally d' r ;;
        let '(last, cells, longest) := q in
        Ret (last, cells_made o (DequeModel.Capacity d) (DequeModel.Capacity d') + cells, Z.max (DequeModel.Len d) longest)
    end.
End Run.

(** Calls only. *)
Definition calls {T} (ops : list (DequeSpec.dop (T := T))) : list (gop T (DequeModel.VecDeque T)) := map Call ops.
