(** OptionSpec.v -- vocabulary for C27-C29 and C70. *)
From Coq Require Import List.
From Verif Require Import Base Effect.
Import ListNotations.

(** A closure that computes [g] and records each call with its argument. *)
Definition logged {A B} (g : A -> B) (x : A) : M (list A) B := fun log => Ret (g x, log ++ [x]).
(** A closure without argument that counts its calls. *)
Definition counted {B} (b : B) : M nat B := fun n => Ret (b, S n).

(** [runs m v tr]: from any log, [m] returns [v] and its closure is called exactly
    with the arguments [tr], in that order. *)
Definition runs {A B} (m : M (list A) B) (v : B) (calls : list A) : Prop :=
  forall log, m log = Ret (v, log ++ calls).
(** [m] returns [v] without running any closure, for any effects they may have. *)
Definition returns {S A} (m : M S A) (v : A) : Prop := forall s, m s = Ret (v, s).
Definition panics {S A} (m : M S A) : Prop := forall s, m s = Panic.
(** Two computations are indistinguishable. *)
Definition same {S A} (m n : M S A) : Prop := forall s, m s = n s.

(** The branch a reader expects a chain to take: the first whose condition holds. *)
Fixpoint first_true {S T} (branches : list (bool * M S T)) (otherwise : M S T) : M S T :=
  match branches with
  | [] => otherwise
  | (true, e) :: _ => e
  | (false, _) :: rest => first_true rest otherwise
  end.
(** What it really does: run every true branch in order, keep the last value. *)
Fixpoint last_true {S T} (acc : option T) (branches : list (bool * M S T)) (otherwise : M S T) : M S T :=
  match branches with
  | [] => match acc with Some v => mret v | None => otherwise end
  | (true, e) :: rest => v <~ e ;; last_true (Some v) rest otherwise
  | (false, _) :: rest => last_true acc rest otherwise
  end.
Definition trues {S T} (branches : list (bool * M S T)) : list (bool * M S T) := filter fst branches.

(** The value an option variable denotes in a heap, and a valid variable. *)
Definition view {T} (h : list T) (o : option nat) : option T :=
  match o with None => None | Some a => nth_error h a end.
Definition valid {T} (h : list T) (o : option nat) : Prop :=
  match o with None => True | Some a => a < length h end.
