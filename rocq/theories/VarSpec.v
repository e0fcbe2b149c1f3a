(** VarSpec.v -- what assignments and references should do. *)
From Coq Require Import List ZArith.
From Verif Require Import VarModel.
Import ListNotations.

(** Memory [m'] is [m] except that variable [p] now holds [w]. *)
Definition only_changed {A} (p : nat) (w : A) (m m' : list A) : Prop :=
  nth_error m' p = Some w /\ length m' = length m /\ forall q, q <> p -> nth_error m' q = nth_error m q.
(** The statement may change variable [p]. *)
Definition writes (s : stmt) (p : nat) : Prop :=
  match s with
  | SOp _ q _ | SOpVar _ q _ | SSet q _ => q = p
  | SSwap q r => q = p \/ r = p
  | SRef _ | SRead _ => False
  end.
Definition leaves_alone (prog : list stmt) (p : nat) : Prop := forall s, In s prog -> ~ writes s p.
(** References as one expects them: [r] refers to the variable [p] if after any program both
    show the same value. *)
Definition refers_to (m : vars) (r p : nat) : Prop :=
  forall prog m' a, run m prog = Some (Base.Ret (m', a)) -> nth_error m' r = nth_error m' p.

(** *** Two variables used in turns *)
(** The calls that go through one of them, and their answers. *)
Definition only {X} (b : bool) (ops : list (bool * X)) : list (bool * X) := filter (fun x => Bool.eqb (fst x) b) ops.
Definition answers {X Y} (b : bool) (ops : list (bool * X)) (l : list Y) : list Y :=
  map snd (filter (fun x => Bool.eqb (fst (fst x)) b) (combine ops l)).
(** The same calls, all through the variable itself. *)
Definition all_direct {X} (ops : list (bool * X)) : list (bool * X) := map (fun x => (false, snd x)) ops.
